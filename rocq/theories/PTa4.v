(** * PTa4: relational characterisations used by the property statements. *)
From Verif Require Export PTa3 Laws.

Section Ema4.
  Context {F : Type} {NF : Num F}.
  Local Open Scope num_scope.
  Local Notation hist := (list (option F)).

  (** the previous element of a list of outputs (missing before the first). *)
  Definition before (p0 : option F) (os : hist) (i : nat) : option F :=
    match i with 0 => p0 | S j => join (nth_error os j) end.

  Lemma ema_rec_spec alpha : forall l prev os, ema_rec alpha prev l = Ok os ->
    length os = length l /\
    forall i x m, nth_error l i = Some (x, m) ->
      match before prev os i with
      | Some p => exists v, x = Some v /\ nth_error os i = Some (Some (alpha * v + (fZ 1 - alpha) * p))
      | None => nth_error os i = Some m
      end.
  Proof.
    induction l as [|[x m] l IH]; intros prev os E; cbn in E.
    - injection E as <-. split; [reflexivity|]. intros [|i]; discriminate.
    - destruct prev as [p|].
      + destruct x as [v|]; [|discriminate]. cbn [unwrap rbind] in E.
        set (e := alpha * v + (fZ 1 - alpha) * p) in *.
        destruct (ema_rec alpha (Some e) l) as [os'|] eqn:E'; [|discriminate]. cbn in E. injection E as <-.
        destruct (IH _ _ E') as [L H]. split; [cbn; lia|]. intros [|i] x0 m0 N; cbn in N.
        * injection N as <- <-. cbn. exists v. split; reflexivity.
        * specialize (H i x0 m0 N). cbn [nth_error]. replace (before (Some p) (Some e :: os') (S i)) with (before (Some e) os' i); [exact H|].
          destruct i; reflexivity.
      + destruct (ema_rec alpha m l) as [os'|] eqn:E'; [|discriminate]. cbn in E. injection E as <-.
        destruct (IH _ _ E') as [L H]. split; [cbn; lia|]. intros [|i] x0 m0 N; cbn in N.
        * injection N as <- <-. reflexivity.
        * specialize (H i x0 m0 N). cbn [nth_error]. replace (before None (m :: os') (S i)) with (before m os' i); [exact H|].
          destruct i; reflexivity.
  Qed.

  (** it panics exactly when some input is missing after a value was output. *)
  Lemma ema_rec_panic alpha : forall l prev,
    (ema_rec alpha prev l = Panic <->
     exists j m, nth_error l j = Some (None, m) /\
       (prev <> None \/ exists i x s, i < j /\ nth_error l i = Some (x, Some s))).
  Proof.
    induction l as [|[x m] l IH]; intros prev; cbn [ema_rec].
    - split; [discriminate|]. intros ([|j] & m & N & _); discriminate.
    - destruct prev as [p|].
      + destruct x as [v|]; cbn [unwrap rbind].
        * destruct (ema_rec alpha (Some (alpha * v + (fZ 1 - alpha) * p)) l) eqn:E; cbn [rbind].
          -- split; [discriminate|]. intros (j & m0 & N & _). exfalso.
             assert (Q : ema_rec alpha (Some (alpha * v + (fZ 1 - alpha) * p)) l = Panic).
             { apply IH. destruct j as [|j]; [discriminate|]. exists j, m0. split; [exact N|]. left; discriminate. }
             congruence.
          -- split; [|reflexivity]. intros _. apply IH in E. destruct E as (j & m0 & N & _).
             exists (S j), m0. split; [exact N|]. left; discriminate.
        * split; [|reflexivity]. intros _. exists 0, m. split; [reflexivity|]. left; discriminate.
      + destruct (ema_rec alpha m l) eqn:E; cbn [rbind].
        * split; [discriminate|]. intros (j & m0 & N & [C|(i & x0 & s & L & Ni)]); [congruence|]. exfalso.
          assert (Q : ema_rec alpha m l = Panic).
          { apply IH. destruct j as [|j]; [lia|]. exists j, m0. split; [exact N|].
            destruct i as [|i]; [injection Ni as _ Em; left; congruence|].
            right. exists i, x0, s. split; [lia|exact Ni]. }
          congruence.
        * split; [|reflexivity]. intros _. apply IH in E. destruct E as (j & m0 & N & H).
          exists (S j), m0. split; [exact N|]. right.
          destruct H as [H|(i & x0 & s & L & Ni)].
          -- destruct m as [s|]; [|congruence]. exists 0, x, s. split; [lia|reflexivity].
          -- exists (S i), x0, s. split; [lia|exact Ni].
  Qed.

  Lemma nth_error_combine {A B} (l : list A) (m : list B) i a b :
    nth_error l i = Some a -> nth_error m i = Some b -> nth_error (combine l m) i = Some (a, b).
  Proof.
    revert m i; induction l as [|x l IH]; intros [|y m] [|i]; cbn; try discriminate.
    - intros E1 E2; injection E1 as ->; injection E2 as ->; reflexivity.
    - apply IH.
  Qed.
  Lemma nth_error_each_prefix {A B} (f : list A -> B) xs i : i < length xs ->
    nth_error (each_prefix f xs) i = Some (f (firstn (S i) xs)).
  Proof.
    intros H. unfold each_prefix, prefixes. rewrite map_map.
    rewrite nth_error_map. rewrite (nth_error_nth' _ 0) by (rewrite seq_length; exact H).
    rewrite seq_nth by exact H. reflexivity.
  Qed.

  (** what Ema does, for every input with or without gaps. *)
  Lemma ema_runs_spec len alpha xs os : 2 <= len -> ema_runs len alpha xs = Ok os ->
    length os = length xs /\
    forall i x, nth_error xs i = Some x ->
      match before None os i with
      | Some p => exists v, x = Some v /\ nth_error os i = Some (Some (alpha * v + (fZ 1 - alpha) * p))
      | None => nth_error os i = Some (sma_out len (firstn (S i) xs))
      end.
  Proof.
    intros L. unfold ema_runs. destruct (Nat.eqb_spec len 1); [lia|]. intros E.
    apply ema_rec_spec in E. destruct E as [Ll H]. rewrite combine_length, length_each_prefix, Nat.min_id in Ll.
    split; [exact Ll|]. intros i x N. apply H. apply nth_error_combine; [exact N|].
    apply nth_error_each_prefix. apply nth_error_Some. congruence.
  Qed.

  Lemma ema_runs_panic len alpha xs : 2 <= len ->
    (ema_runs len alpha xs = Panic <->
     exists i j w, i < j /\ window len (firstn (S i) xs) = Some w /\ nth_error xs j = Some None).
  Proof.
    intros L. unfold ema_runs. destruct (Nat.eqb_spec len 1); [lia|]. rewrite ema_rec_panic.
    assert (C : forall k a b, nth_error (combine xs (each_prefix (sma_out len) xs)) k = Some (a, b) ->
                nth_error xs k = Some a /\ b = sma_out len (firstn (S k) xs)).
    { intros k a b N0. assert (Hk : k < length xs).
      { assert (N' : nth_error (combine xs (each_prefix (sma_out len) xs)) k <> None) by congruence.
        apply nth_error_Some in N'. rename N' into N. rewrite combine_length, length_each_prefix in N. lia. }
      destruct (nth_error xs k) as [y|] eqn:E; [|apply nth_error_None in E; lia].
      rewrite (nth_error_combine _ _ _ _ _ E (nth_error_each_prefix _ _ _ Hk)) in N0. injection N0 as <- <-. auto. }
    split.
    - intros (j & m & N & [Q|(i & x & s & Lij & Ni)]); [congruence|].
      apply C in N. apply C in Ni. destruct N as [N _], Ni as [Ni Es].
      destruct (window len (firstn (S i) xs)) as [w|] eqn:W.
      + exists i, j, w. auto.
      + unfold sma_out in Es. destruct (Nat.eqb_spec len 1); [lia|]. rewrite W in Es. discriminate.
    - intros (i & j & w & Lij & W & N).
      assert (Hj : j < length xs) by (apply nth_error_Some; congruence).
      exists j, (sma_out len (firstn (S j) xs)). split; [apply nth_error_combine; [exact N|apply nth_error_each_prefix; exact Hj]|].
      right. destruct (nth_error xs i) as [x|] eqn:Ei; [|apply nth_error_None in Ei; lia].
      exists i, x. unfold sma_out. destruct (Nat.eqb_spec len 1); [lia|].
      exists (rsum len (firstn (S i) xs) / fnat len). split; [exact Lij|].
      apply nth_error_combine; [exact Ei|]. rewrite nth_error_each_prefix by lia.
      destruct (Nat.eqb_spec len 1); [lia|]. rewrite W. reflexivity.
  Qed.
End Ema4.

Section Best4.
  Context {F : Type} {NF : Num F} {OF : OrdNum F}.
  Local Open Scope num_scope.

  Definition no_nan (l : list F) : Prop := Forall (fun v => fisnan v = false) l.
  (** [m] is a greatest / least element of [l]. *)
  Definition greatest (m : F) (l : list F) : Prop := In m l /\ Forall (fun v => (v <=? m) = true) l.
  Definition least (m : F) (l : list F) : Prop := In m l /\ Forall (fun v => (m <=? v) = true) l.

  Lemma beats_max x l : fisnan x = false -> no_nan l ->
    greatest (beats (fun v m => m <? v) x l) (x :: l).
  Proof.
    revert x; induction l as [|y l IH]; intros x Hx Hl.
    - rewrite beats_nil. split; [left; reflexivity|]. constructor; [apply le_refl; exact Hx|constructor].
    - rewrite beats_cons. inversion Hl as [|? ? Hy Hl']; subst.
      destruct (x <? y) eqn:E.
      + destruct (IH y Hy Hl') as [I G]. split.
        * right. exact I.
        * constructor; [|exact G]. inversion G as [|? ? G1 _]; subst.
          apply lt_le in E. eapply le_trans; eassumption.
      + destruct (IH x Hx Hl') as [I G]. inversion G as [|? ? G1 G2]; subst. split.
        * destruct I as [<-|I]; [left; reflexivity|right; right; exact I].
        * constructor; [exact G1|]. constructor; [|exact G2].
          apply le_trans with x; [apply not_lt_le; auto|exact G1].
  Qed.
  Lemma beats_min x l : fisnan x = false -> no_nan l ->
    least (beats (fun v m => v <? m) x l) (x :: l).
  Proof.
    revert x; induction l as [|y l IH]; intros x Hx Hl.
    - rewrite beats_nil. split; [left; reflexivity|]. constructor; [apply le_refl; exact Hx|constructor].
    - rewrite beats_cons. inversion Hl as [|? ? Hy Hl']; subst.
      destruct (y <? x) eqn:E.
      + destruct (IH y Hy Hl') as [I G]. split.
        * right. exact I.
        * constructor; [|exact G]. inversion G as [|? ? G1 _]; subst.
          apply lt_le in E. eapply le_trans; eassumption.
      + destruct (IH x Hx Hl') as [I G]. inversion G as [|? ? G1 G2]; subst. split.
        * destruct I as [<-|I]; [left; reflexivity|right; right; exact I].
        * constructor; [exact G1|]. constructor; [|exact G2].
          apply le_trans with x; [exact G1|apply not_lt_le; auto].
  Qed.
  Lemma best_max l : no_nan l -> match best (fun v m => m <? v) l with Some m => greatest m l | None => l = [] end.
  Proof. intros H. destruct l as [|x l]; [reflexivity|]. inversion H; subst. apply beats_max; assumption. Qed.
  Lemma best_min l : no_nan l -> match best (fun v m => v <? m) l with Some m => least m l | None => l = [] end.
  Proof. intros H. destruct l as [|x l]; [reflexivity|]. inversion H; subst. apply beats_min; assumption. Qed.

  (** the index found is the earliest extremum. *)
  Definition first_max (w : list (option F)) (j : nat) : Prop :=
    exists m, nth_error w j = Some (Some m) /\
      (forall k v, nth_error w k = Some (Some v) -> (v <=? m) = true) /\
      (forall k v, k < j -> nth_error w k = Some (Some v) -> (v <? m) = true).
  Definition first_min (w : list (option F)) (j : nat) : Prop :=
    exists m, nth_error w j = Some (Some m) /\
      (forall k v, nth_error w k = Some (Some v) -> (m <=? v) = true) /\
      (forall k v, k < j -> nth_error w k = Some (Some v) -> (m <? v) = true).

  (** generic in a "better than" order. *)
  Section Gen.
    Variable cmp : F -> F -> bool.
    Hypothesis cmp_trans : forall a b c, cmp a b = true -> cmp b c = true -> cmp a c = true.
    Hypothesis cmp_cotrans : forall a b c, fisnan c = false -> cmp a b = true -> cmp a c = true \/ cmp c b = true.
    Hypothesis cmp_irrefl : forall a, cmp a a = false.

    Definition first_best (w : list (option F)) (j : nat) : Prop :=
      exists m, nth_error w j = Some (Some m) /\
        (forall k v, nth_error w k = Some (Some v) -> cmp v m = false) /\
        (forall k v, k < j -> nth_error w k = Some (Some v) -> cmp m v = true).

    Lemma find_loop_none arr : forall i m, find_loop cmp arr i (Some m) None = None ->
      forall k v, nth_error arr k = Some (Some v) -> cmp v m = false.
    Proof.
      induction arr as [|[y|] arr IH]; intros i m E k v N; [destruct k; discriminate| |].
      - cbn in E. destruct (cmp y m) eqn:C.
        + exfalso. destruct (find_loop_spec cmp arr (S i) y i) as (A & _ & _). rewrite A in E.
          destruct (find_loop cmp arr (S i) (Some y) None); discriminate.
        + destruct k; cbn in N; [injection N as ->; exact C|]. exact (IH (S i) m E k v N).
      - cbn in E. destruct k; cbn in N; [discriminate|]. exact (IH (S i) m E k v N).
    Qed.

    Lemma find_loop_first arr : forall i m j, fisnan m = false -> no_nan (present arr) ->
      find_loop cmp arr i (Some m) None = Some j ->
      exists x, i <= j /\ nth_error arr (j - i) = Some (Some x) /\ cmp x m = true /\
        (forall k v, nth_error arr k = Some (Some v) -> cmp v x = false) /\
        (forall k v, k < j - i -> nth_error arr k = Some (Some v) -> cmp x v = true).
    Proof.
      induction arr as [|[y|] arr IH]; intros i m j Hm Hn E; [discriminate| |].
      - cbn in E, Hn. inversion Hn as [|? ? Hy Hn']; subst. destruct (cmp y m) eqn:C.
        + destruct (find_loop_spec cmp arr (S i) y i) as (A & _ & _). rewrite A in E.
          destruct (find_loop cmp arr (S i) (Some y) None) as [j'|] eqn:E'.
          * injection E as <-. destruct (IH (S i) y j' Hy Hn' E') as (x & L & N & Cx & G1 & G2).
            exists x. split; [lia|]. replace (j' - i)%nat with (S (j' - S i)) by lia. cbn [nth_error].
            split; [exact N|]. split; [eapply cmp_trans; eassumption|]. split.
            -- intros [|k] v Nk; [|eapply G1; exact Nk]. cbn in Nk; injection Nk as <-.
               destruct (cmp y x) eqn:Q; [|reflexivity]. rewrite <- (cmp_irrefl y). symmetry. exact (cmp_trans y x y Q Cx).
            -- intros [|k] v Lk Nk; [cbn in Nk; injection Nk as <-; exact Cx|]. apply (G2 k v); [lia|exact Nk].
          * injection E as <-. exists y. split; [lia|]. rewrite Nat.sub_diag. split; [reflexivity|]. split; [exact C|]. split.
            -- intros [|k] v Nk; [cbn in Nk; injection Nk as <-; apply cmp_irrefl|].
               eapply find_loop_none; eassumption.
            -- intros k v Lk; lia.
        + destruct (IH (S i) m j Hm Hn' E) as (x & L & N & Cx & G1 & G2).
          exists x. split; [lia|]. replace (j - i)%nat with (S (j - S i)) by lia. cbn [nth_error].
          split; [exact N|]. split; [exact Cx|]. split.
          -- intros [|k] v Nk; [|eapply G1; exact Nk]. cbn in Nk; injection Nk as <-.
             destruct (cmp y x) eqn:Q; [|reflexivity]. rewrite <- C. symmetry. exact (cmp_trans y x m Q Cx).
          -- intros [|k] v Lk Nk; [|apply (G2 k v); [lia|exact Nk]]. cbn in Nk; injection Nk as <-.
             destruct (cmp_cotrans x m y Hy Cx) as [Q|Q]; [exact Q|congruence].
      - cbn in E, Hn. destruct (IH (S i) m j Hm Hn E) as (x & L & N & Cx & G1 & G2).
        exists x. split; [lia|]. replace (j - i)%nat with (S (j - S i)) by lia. cbn [nth_error].
        split; [exact N|]. split; [exact Cx|]. split.
        + intros [|k] v Nk; [discriminate|]. eapply G1; exact Nk.
        + intros [|k] v Lk Nk; [discriminate|]. apply (G2 k v); [lia|exact Nk].
    Qed.

    Lemma find_loop_best arr : forall i, no_nan (present arr) -> present arr <> [] ->
      exists j, find_loop cmp arr i None None = Some j /\ i <= j /\ first_best arr (j - i).
    Proof.
      induction arr as [|[y|] arr IH]; intros i Hn N; cbn in Hn, N; [congruence| |].
      - inversion Hn as [|? ? Hy Hn']; subst. cbn [find_loop].
        destruct (find_loop_spec cmp arr (S i) y i) as (A & _ & _). rewrite A.
        destruct (find_loop cmp arr (S i) (Some y) None) as [j|] eqn:E.
        + destruct (find_loop_first arr (S i) y j Hy Hn' E) as (x & L & Nx & Cx & G1 & G2).
          exists j. split; [reflexivity|]. split; [lia|]. replace (j - i)%nat with (S (j - S i)) by lia.
          exists x. split; [exact Nx|]. split.
          * intros [|k] v Nk; [|eapply G1; exact Nk]. cbn in Nk; injection Nk as <-.
            destruct (cmp y x) eqn:Q; [|reflexivity]. rewrite <- (cmp_irrefl y). symmetry. exact (cmp_trans y x y Q Cx).
          * intros [|k] v Lk Nk; [cbn in Nk; injection Nk as <-; exact Cx|]. apply (G2 k v); [lia|exact Nk].
        + exists i. split; [reflexivity|]. split; [lia|]. rewrite Nat.sub_diag. exists y. split; [reflexivity|]. split.
          * intros [|k] v Nk; [cbn in Nk; injection Nk as <-; apply cmp_irrefl|]. eapply find_loop_none; eassumption.
          * intros k v Lk; lia.
      - cbn [find_loop]. destruct (IH (S i) Hn N) as (j & E & L & x & Nx & G1 & G2).
        exists j. split; [exact E|]. split; [lia|]. replace (j - i)%nat with (S (j - S i)) by lia. exists x.
        split; [exact Nx|]. split.
        + intros [|k] v Nk; [discriminate|]. eapply G1; exact Nk.
        + intros [|k] v Lk Nk; [discriminate|]. apply (G2 k v); [lia|exact Nk].
    Qed.
  End Gen.

  Lemma nth_present (w : list (option F)) k v : nth_error w k = Some (Some v) -> In v (present w).
  Proof.
    revert k; induction w as [|[x|] w IH]; intros [|k] N; cbn in N; try discriminate; cbn.
    - injection N as ->. left; reflexivity.
    - right. eapply IH; exact N.
    - eapply IH; exact N.
  Qed.

  Lemma first_best_max w j : no_nan (present w) -> first_best (fun v m => m <? v) w j -> first_max w j.
  Proof.
    intros Hn (m & N & A & B). exists m. split; [exact N|]. split.
    - intros k v Nk. unfold no_nan in Hn. rewrite Forall_forall in Hn.
      apply not_lt_le; [apply Hn; eapply nth_present; exact Nk|apply Hn; eapply nth_present; exact N|eapply A; exact Nk].
    - exact B.
  Qed.
  Lemma first_best_min w j : no_nan (present w) -> first_best (fun v m => v <? m) w j -> first_min w j.
  Proof.
    intros Hn (m & N & A & B). exists m. split; [exact N|]. split.
    - intros k v Nk. unfold no_nan in Hn. rewrite Forall_forall in Hn.
      apply not_lt_le; [apply Hn; eapply nth_present; exact N|apply Hn; eapply nth_present; exact Nk|eapply A; exact Nk].
    - exact B.
  Qed.
End Best4.

Lemma nth_each {A B} (f : list A -> B) xs i o : nth_error (each_prefix f xs) i = Some o ->
  i < length xs /\ o = f (firstn (S i) xs).
Proof.
  intros H. assert (Hi : i < length xs) by (rewrite <- (length_each_prefix f xs); apply nth_error_Some; congruence).
  split; [exact Hi|]. rewrite nth_error_each_prefix in H by exact Hi. congruence.
Qed.
