(** * PShare: clones of a context share one position. *)
From Verif Require Export PCommon.

Section Share.
  Context {F : Type} {NF : Num F}.

  (** A program using several context handles: create a context over a
      provider, clone the [k]-th handle obtained so far, or call [next] on the
      [k]-th handle. *)
  Inductive sop := ONew (d : provider F) | OClone (k : nat) | ONext (k : nat).

  (** Running it on the heap model. *)
  Fixpoint srun (hp : heap) (hs : list handle) (ops : list sop)
      : res (heap * list (@handle F) * list (option nat)) :=
    match ops with
    | [] => Ok (hp, hs, [])
    | ONew d :: t => '(hp', h) <- h_new hp d ;; srun hp' (hs ++ [h]) t
    | OClone k :: t => h <- vget hs k ;; srun hp (hs ++ [h_clone h]) t
    | ONext k :: t =>
        h <- vget hs k ;; '(hp', o) <- h_next hp h ;;
        '(r, os) <- srun hp' hs t ;; Ok (r, o :: os)
    end.

  (** The specification: a list of independent contexts; a handle is just the
      number of the context it stands for. *)
  Fixpoint arun (cs : list (ctx F)) (ns : list nat) (ops : list sop)
      : res (list (ctx F) * list nat * list (option nat)) :=
    match ops with
    | [] => Ok (cs, ns, [])
    | ONew d :: t => c <- ctx_new d ;; arun (cs ++ [c]) (ns ++ [length cs]) t
    | OClone k :: t => n <- vget ns k ;; arun cs (ns ++ [n]) t
    | ONext k :: t =>
        n <- vget ns k ;; c <- vget cs n ;;
        let '(c', o) := ctx_next c in
        '(r, os) <- arun (firstn n cs ++ c' :: skipn (S n) cs) ns t ;; Ok (r, o :: os)
    end.

  Definition cell_of (c : ctx F) : cells := mkCells (c_index c) (c_running c).
  Definition handle_of (cs : list (ctx F)) (n : nat) (h : @handle F) : Prop :=
    h_addr h = n /\ exists c, nth_error cs n = Some c /\
      h_data h = c_data c /\ h_first h = c_first c /\ h_last h = c_last c /\ h_bars h = c_bars c.
  Definition sim (cs : list (ctx F)) (ns : list nat) (hp : heap) (hs : list (@handle F)) : Prop :=
    hp = map cell_of cs /\ Forall2 (handle_of cs) ns hs.

  Lemma sim_view cs ns hp hs : sim cs ns hp hs ->
    forall k n, nth_error ns k = Some n ->
    exists h c, nth_error hs k = Some h /\ nth_error cs n = Some c /\ h_view hp h = Ok c.
  Proof.
    intros (-> & F2) k n E. revert hs F2 k E. induction ns as [|m ns IH]; intros hs F2 k E; [destruct k; discriminate|].
    inversion F2 as [|? h ? hs' Hh F2']; subst. destruct k as [|k].
    - injection E as ->. destruct Hh as (Ea & c & Ec & E1 & E2 & E3 & E4). exists h, c.
      split; [reflexivity|]. split; [exact Ec|]. unfold h_view, vget. rewrite Ea, nth_error_map, Ec. cbn.
      rewrite E1, E2, E3, E4. destruct c; reflexivity.
    - destruct (IH hs' F2' k E) as (h' & c & A & B & D). exists h', c. repeat split; assumption.
  Qed.

  Lemma Forall2_nth {A B} (R : A -> B -> Prop) l m : Forall2 R l m -> forall k,
    match nth_error l k, nth_error m k with
    | Some a, Some b => R a b | None, None => True | _, _ => False end.
  Proof.
    induction 1 as [|a b l m Hab H IH]; intros [|k]; cbn; try exact I; [exact Hab|apply IH].
  Qed.

  Lemma handle_of_ext cs cs' n h :
    (forall c, nth_error cs n = Some c -> exists c', nth_error cs' n = Some c' /\
       c_data c' = c_data c /\ c_first c' = c_first c /\ c_last c' = c_last c /\ c_bars c' = c_bars c) ->
    handle_of cs n h -> handle_of cs' n h.
  Proof.
    intros E (A & c & Ec & E1 & E2 & E3 & E4). split; [exact A|].
    destruct (E c Ec) as (c' & Ec' & D1 & D2 & D3 & D4). exists c'.
    rewrite D1, D2, D3, D4. repeat split; assumption.
  Qed.
  Lemma Forall2_impl' {A B} (R Q : A -> B -> Prop) l m :
    (forall a b, R a b -> Q a b) -> Forall2 R l m -> Forall2 Q l m.
  Proof. intros H; induction 1; constructor; auto. Qed.

  Lemma set_nth_split {A} (l : list A) n v : n < length l ->
    set_nth l n v = firstn n l ++ v :: skipn (S n) l.
  Proof.
    revert n; induction l as [|a l IH]; intros n H; [cbn in H; lia|].
    unfold set_nth in *. destruct n as [|n]; [reflexivity|].
    cbn [firstn skipn app]. f_equal. apply IH. cbn in H; lia.
  Qed.
  Lemma nth_update {A} (l : list A) n v k : n < length l ->
    nth_error (firstn n l ++ v :: skipn (S n) l) k = if k =? n then Some v else nth_error l k.
  Proof.
    revert n k; induction l as [|a l IH]; intros n k H; [cbn in H; lia|].
    destruct n as [|n], k as [|k]; cbn [firstn app nth_error Nat.eqb]; try reflexivity.
    rewrite IH by (cbn in H; lia). reflexivity.
  Qed.

  Lemma ctx_next_keeps (c c' : ctx F) o : ctx_next c = (c', o) ->
    c_data c' = c_data c /\ c_first c' = c_first c /\ c_last c' = c_last c /\ c_bars c' = c_bars c.
  Proof.
    unfold ctx_next. destruct (c_running c); cbn [negb]; [destruct (_ <=? _)|];
      intros E; injection E as <- <-; repeat split; reflexivity.
  Qed.

  (** The heap program behaves as the specification, panics included. *)
  Lemma share_sim ops : forall cs ns hp hs, sim cs ns hp hs ->
    match arun cs ns ops with
    | Panic => srun hp hs ops = Panic
    | Ok (cs', ns', os) => exists hp' hs', srun hp hs ops = Ok (hp', hs', os) /\ sim cs' ns' hp' hs'
    end.
  Proof.
    induction ops as [|op ops IH]; intros cs ns hp hs HS.
    { exists hp, hs. split; [reflexivity|exact HS]. }
    destruct HS as (EH & F2). pose proof (Forall2_nth _ _ _ F2) as FN.
    destruct op as [d|k|k]; cbn [arun srun].
    - unfold ctx_new, h_new. destruct (usub (p_end d) (p_start d)) as [n|]; cbn [rbind]; [|reflexivity].
      apply IH. split; [rewrite EH, map_app; reflexivity|].
      apply Forall2_app.
      + eapply Forall2_impl'; [|exact F2]. intros m h. apply handle_of_ext.
        intros c Ec. exists c. split; [|repeat split].
        rewrite nth_error_app1; [exact Ec|]. apply nth_error_Some. congruence.
      + constructor; [|constructor]. split; [cbn; rewrite EH; apply map_length|].
        eexists. split; [rewrite nth_error_app2, Nat.sub_diag by lia; reflexivity|]. repeat split.
    - unfold vget. specialize (FN k). destruct (nth_error ns k) as [n|], (nth_error hs k) as [h|]; try contradiction.
      2:{ reflexivity. }
      cbn [unwrap rbind]. apply IH. split; [exact EH|]. apply Forall2_app; [exact F2|].
      constructor; [|constructor]. exact FN.
    - unfold vget. specialize (FN k).
      destruct (nth_error ns k) as [n|], (nth_error hs k) as [h|]; try contradiction.
      2:{ reflexivity. }
      destruct FN as (Ea & c & Ec & E1 & E2 & E3 & E4). cbn [unwrap rbind].
      rewrite Ec; cbn [unwrap rbind].
      destruct (ctx_next c) as [c' o] eqn:EN.
      assert (EHN : h_next hp h = Ok (map cell_of (firstn n cs ++ c' :: skipn (S n) cs), o)).
      { assert (L : n < length cs) by (apply nth_error_Some; congruence).
        unfold h_next, vget. rewrite EH, Ea, nth_error_map, Ec. cbn [option_map unwrap rbind cl_running cl_index cell_of].
        rewrite E2, E3.
        revert EN. unfold ctx_next. destruct (c_running c) eqn:Er; cbn [negb].
        - destruct (c_index c + 1 <=? c_last c); intros EN; injection EN as <- <-;
            rewrite set_nth_split by (rewrite map_length; exact L); rewrite map_app; cbn [map];
            rewrite firstn_map, skipn_map; do 3 f_equal; unfold cell_of; cbn; rewrite ?Er; reflexivity.
        - intros EN; injection EN as <- <-. rewrite set_nth_split by (rewrite map_length; exact L).
          rewrite map_app; cbn [map]. rewrite firstn_map, skipn_map. reflexivity. }
      rewrite EHN; cbn [rbind].
      specialize (IH (firstn n cs ++ c' :: skipn (S n) cs) ns (map cell_of (firstn n cs ++ c' :: skipn (S n) cs)) hs).
      assert (SS : sim (firstn n cs ++ c' :: skipn (S n) cs) ns (map cell_of (firstn n cs ++ c' :: skipn (S n) cs)) hs).
      { split; [reflexivity|]. eapply Forall2_impl'; [|exact F2]. intros m h'. apply handle_of_ext.
        assert (L : n < length cs) by (apply nth_error_Some; congruence).
        intros c0 Ec0. rewrite nth_update by exact L. destruct (Nat.eqb_spec m n) as [->|].
        - exists c'. split; [reflexivity|]. rewrite Ec in Ec0. injection Ec0 as <-. eapply ctx_next_keeps; exact EN.
        - exists c0. split; [exact Ec0|]. repeat split. }
      specialize (IH SS). destruct (arun _ ns ops) as [[[cs' ns'] os]|]; cbn [rbind].
      + destruct IH as (hp' & hs' & Er & Hsim). rewrite Er; cbn [rbind]. exists hp', hs'. split; [reflexivity|exact Hsim].
      + rewrite IH. reflexivity.
  Qed.
End Share.
