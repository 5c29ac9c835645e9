(** * PStrategy2: what the book of [SpecStrategy] looks like after any orders. *)
From Verif Require Export PStrategy.

Lemma nth_snoc {A} (l : list A) a i b :
  nth_error (l ++ [a]) i = Some b <-> (nth_error l i = Some b) \/ (i = length l /\ b = a).
Proof.
  destruct (Nat.lt_ge_cases i (length l)) as [H|H].
  - rewrite nth_error_app1 by exact H. split; [auto|]. intros [E|[E _]]; [exact E|lia].
  - rewrite nth_error_app2 by exact H. destruct (i - length l) as [|k] eqn:E.
    + cbn. split.
      * intros X; injection X as <-. right; split; [lia|reflexivity].
      * intros [X|[_ ->]]; [|reflexivity]. assert (nth_error l i = None) by (apply nth_error_None; lia). congruence.
    + cbn. split; [destruct k; discriminate|]. intros [X|[X _]]; [|lia].
      assert (nth_error l i = None) by (apply nth_error_None; lia). congruence.
Qed.
Lemma nth_lt {A} (l : list A) i a : nth_error l i = Some a -> i < length l.
Proof. intros H. apply nth_error_Some. congruence. Qed.
Lemma length_removelast {A} (l : list A) : length (removelast l) = length l - 1.
Proof. destruct l as [|a l _] using rev_ind; [reflexivity|]. rewrite removelast_last, app_length; cbn; lia. Qed.
Lemma firstn_snoc_le {A} i (l : list A) a : i <= length l -> firstn i (l ++ [a]) = firstn i l.
Proof. intros H. rewrite firstn_app. replace (i - length l) with 0 by lia. cbn. apply app_nil_r. Qed.

Section Book.
  Context {F : Type} {NF : Num F}.
  Local Open Scope num_scope.
  Implicit Types (ps : list (position F)) (cfg : sconfig F) (o : @order F).

  Definition otick (o : @order F) : nat := fst (fst o).
  Definition oprice (o : @order F) : F := snd (fst o).
  Definition odir (o : @order F) : direction := snd o.

  (** The three shapes an order can give the book. *)
  Lemma place_cases cfg ps o :
    (place cfg ps o = ps ++ [enter cfg ps o] /\ exit_of cfg ps o = None /\ entry_of cfg ps o = Some (enter cfg ps o) /\
     (forall p, newest ps = Some p -> pos_closed p = true)) \/
    (exists old p, ps = old ++ [p] /\ pos_closed p = false /\
      ((pos_dir p = odir o /\ place cfg ps o = ps /\ exit_of cfg ps o = None /\ entry_of cfg ps o = None) \/
       (pos_dir p = get_opposite (odir o) /\ exit_of cfg ps o = Some (leave p o) /\
        ((sc_continuous cfg = true /\
          place cfg ps o = old ++ [leave p o] ++ [enter cfg (old ++ [leave p o]) o] /\
          entry_of cfg ps o = Some (enter cfg (old ++ [leave p o]) o)) \/
         (sc_continuous cfg = false /\ place cfg ps o = old ++ [leave p o] /\ entry_of cfg ps o = None))))).
  Proof.
    unfold place, exit_of, entry_of, odir. destruct ps as [|p old _] using rev_ind.
    - left. cbn. repeat split. discriminate.
    - rewrite newest_snoc, removelast_last. destruct (pos_closed p) eqn:C.
      + left. repeat split. intros p' E; injection E as <-; exact C.
      + right. exists old, p. split; [reflexivity|]. split; [exact C|].
        destruct (pos_dir p), (snd o); cbn [dir_eqb get_opposite];
          (left; repeat split; reflexivity) || (right; split; [reflexivity|]; split; [reflexivity|]);
          (destruct (sc_continuous cfg); [left|right]; rewrite <- ?app_assoc; repeat split; reflexivity).
  Qed.

  Lemma enter_closed cfg ps o : pos_closed (enter cfg ps o) = false.
  Proof. destruct o as [[t x] d]; reflexivity. Qed.
  Lemma enter_out cfg ps o : pos_out (enter cfg ps o) = None.
  Proof. destruct o as [[t x] d]; reflexivity. Qed.
  Lemma enter_in cfg ps o : pos_in (enter cfg ps o) = (otick o, oprice o).
  Proof. destruct o as [[t x] d]; reflexivity. Qed.
  Lemma enter_dir cfg ps o : pos_dir (enter cfg ps o) = odir o.
  Proof. destruct o as [[t x] d]; reflexivity. Qed.
  Lemma enter_size cfg ps o : pos_size (enter cfg ps o) = size_for cfg ps (oprice o).
  Proof. destruct o as [[t x] d]; reflexivity. Qed.
  Lemma leave_out p o : pos_out (leave p o) = Some (otick o, oprice o).
  Proof. destruct o as [[t x] d]; reflexivity. Qed.
  Lemma leave_in p o : pos_in (leave p o) = pos_in p.
  Proof. destruct o as [[t x] d]; reflexivity. Qed.
  Lemma leave_dir p o : pos_dir (leave p o) = pos_dir p.
  Proof. destruct o as [[t x] d]; reflexivity. Qed.
  Lemma leave_size p o : pos_size (leave p o) = pos_size p.
  Proof. destruct o as [[t x] d]; reflexivity. Qed.

  (** Order ticks in [lo, hi), strictly increasing. *)
  Record sane cfg (lo hi : nat) ps : Prop := {
    sn_one : forall i p, nth_error ps i = Some p ->
      (lo <= fst (pos_in p) < hi)%nat /\
      match pos_out p with
      | Some (x, _) => (fst (pos_in p) < x < hi)%nat
      | None => S i = length ps
      end;
    sn_next : forall i p1 p2, nth_error ps i = Some p1 -> nth_error ps (S i) = Some p2 ->
      exists x q, pos_out p1 = Some (x, q) /\
        if sc_continuous cfg then pos_in p2 = (x, q) /\ pos_dir p2 = get_opposite (pos_dir p1)
        else (x < fst (pos_in p2))%nat;
    sn_size : forall i p, nth_error ps i = Some p -> pos_size p = size_for cfg (firstn i ps) (snd (pos_in p))
  }.

  Lemma sane_nil cfg lo hi : sane cfg lo hi [].
  Proof. split; intros i; destruct i; discriminate. Qed.
  Lemma sane_mono cfg lo hi hi' ps : (hi <= hi')%nat -> sane cfg lo hi ps -> sane cfg lo hi' ps.
  Proof.
    intros L [A B C]. split; auto. intros i p H. destruct (A i p H) as [X Y]. split; [lia|].
    destruct (pos_out p) as [[x q]|]; [lia|exact Y].
  Qed.
  Lemma sane_closed_prefix cfg lo hi old p : sane cfg lo hi (old ++ [p]) -> forallb pos_closed old = true.
  Proof.
    intros [A _ _]. apply forallb_forall. intros a Ha. apply In_nth_error in Ha. destruct Ha as [i Hi].
    destruct (A i a) as [_ X]. { apply nth_snoc; left; exact Hi. }
    unfold pos_closed. destruct (pos_out a) as [[]|]; [reflexivity|]. rewrite app_length in X; cbn in X.
    apply nth_lt in Hi. lia.
  Qed.

  (** Appending a position to a book all of whose positions are closed. *)
  Lemma sane_enter cfg lo hi ps o : sane cfg lo hi ps -> (hi <= otick o)%nat -> (lo <= otick o)%nat ->
    (forall p, newest ps = Some p -> pos_closed p = true) -> sc_continuous cfg = false \/ ps = [] ->
    sane cfg lo (S (otick o)) (ps ++ [enter cfg ps o]).
  Proof.
    intros [A B C] L1 L2 CL CO. split.
    - intros i p H. apply nth_snoc in H. rewrite app_length; cbn [length]. destruct H as [H|[-> ->]].
      + destruct (A i p H) as [X Y]. split; [lia|]. destruct (pos_out p) as [[x q]|] eqn:E; [lia|].
        exfalso. pose proof (nth_lt _ _ _ H). assert (N : newest ps = Some p) by (unfold newest; rewrite <- H; f_equal; lia).
        apply CL in N. unfold pos_closed in N. rewrite E in N; discriminate.
      + rewrite enter_in, enter_out. cbn. lia.
    - intros i p1 p2 H1 H2. apply nth_snoc in H1, H2.
      destruct H1 as [H1|[-> ->]]; destruct H2 as [H2|[E2 ->]].
      + eapply B; eassumption.
      + destruct CO as [CO| ->]; [|destruct i; discriminate]. rewrite CO.
        assert (N : newest ps = Some p1) by (unfold newest; rewrite <- H1; f_equal; lia).
        apply CL in N. unfold pos_closed in N. destruct (pos_out p1) as [[x q]|] eqn:E; [|discriminate].
        exists x, q. split; [reflexivity|]. rewrite enter_in. cbn. destruct (A i p1 H1) as [_ Y]. rewrite E in Y. lia.
      + apply nth_lt in H2. lia.
      + lia.
    - intros i p H. apply nth_snoc in H. destruct H as [H|[-> ->]].
      + rewrite firstn_snoc_le by (apply nth_lt in H; lia). apply C; exact H.
      + rewrite firstn_snoc_le, firstn_all, enter_size, enter_in by lia. reflexivity.
  Qed.

  Lemma sane_leave cfg lo hi old p o : sane cfg lo hi (old ++ [p]) -> (hi <= otick o)%nat -> pos_closed p = false ->
    sane cfg lo (S (otick o)) (old ++ [leave p o]).
  Proof.
    intros [A B C] L1 CL. split.
    - intros i a H. rewrite app_length; cbn [length]. apply nth_snoc in H. destruct H as [H|[-> ->]].
      + destruct (A i a) as [X Y]; [apply nth_snoc; left; exact H|]. split; [lia|].
        destruct (pos_out a) as [[x q]|]; [lia|]. rewrite app_length in Y; cbn in Y; lia.
      + destruct (A (length old) p) as [X Y]; [apply nth_snoc; right; auto|].
        rewrite leave_in, leave_out. lia.
    - intros i p1 p2 H1 H2. apply nth_snoc in H1, H2.
      destruct H1 as [H1|[-> ->]]; destruct H2 as [H2|[E2 ->]].
      + apply (B i); apply nth_snoc; left; assumption.
      + rewrite leave_in, leave_dir. apply (B i); apply nth_snoc; [left; assumption|right; auto].
      + apply nth_lt in H2. lia.
      + lia.
    - intros i a H. apply nth_snoc in H. destruct H as [H|[-> ->]].
      + pose proof (nth_lt _ _ _ H). rewrite firstn_snoc_le by lia. rewrite (C i a) by (apply nth_snoc; left; exact H).
        rewrite firstn_snoc_le by lia. reflexivity.
      + rewrite leave_size, leave_in. rewrite firstn_snoc_le, firstn_all by lia.
        rewrite (C (length old) p) by (apply nth_snoc; right; auto).
        rewrite firstn_snoc_le, firstn_all by lia. reflexivity.
  Qed.

  (** In continuous mode: the reversal. *)
  Lemma sane_reverse cfg lo hi old p o : sane cfg lo hi (old ++ [p]) -> (hi <= otick o)%nat -> (lo <= otick o)%nat ->
    pos_closed p = false -> sc_continuous cfg = true -> pos_dir p = get_opposite (odir o) ->
    sane cfg lo (S (otick o)) ((old ++ [leave p o]) ++ [enter cfg (old ++ [leave p o]) o]).
  Proof.
    intros S0 L1 L2 CL CO D. pose proof (sane_leave _ _ _ _ _ _ S0 L1 CL) as [A B C].
    set (l := old ++ [leave p o]) in *. split.
    - intros i a H. apply nth_snoc in H. rewrite app_length; cbn [length]. destruct H as [H|[-> ->]].
      + destruct (A i a H) as [X Y]. split; [lia|]. destruct (pos_out a) as [[x q]|] eqn:E; [lia|].
        exfalso. unfold l in H. apply nth_snoc in H. destruct H as [H|[_ ->]]; [|rewrite leave_out in E; discriminate].
        apply nth_lt in H. unfold l in Y. rewrite app_length in Y; cbn in Y; lia.
      + rewrite enter_in, enter_out. cbn. lia.
    - intros i p1 p2 H1 H2. apply nth_snoc in H1, H2.
      destruct H1 as [H1|[-> ->]]; destruct H2 as [H2|[E2 ->]].
      + apply (B i); assumption.
      + rewrite CO. unfold l in H1. apply nth_snoc in H1. destruct H1 as [H1|[_ ->]].
        { apply nth_lt in H1. unfold l in E2. rewrite app_length in E2; cbn in E2; lia. }
        exists (otick o), (oprice o). rewrite leave_out, enter_in, enter_dir, leave_dir, D. repeat split. destruct (odir o); reflexivity.
      + apply nth_lt in H2. lia.
      + lia.
    - intros i a H. apply nth_snoc in H. destruct H as [H|[-> ->]].
      + rewrite firstn_snoc_le by (apply nth_lt in H; lia). apply C; exact H.
      + rewrite firstn_snoc_le, firstn_all, enter_size, enter_in by lia. reflexivity.
  Qed.

  Lemma sane_place cfg lo hi ps o : sane cfg lo hi ps -> always_in cfg ps -> (hi <= otick o)%nat -> (lo <= otick o)%nat ->
    sane cfg lo (S (otick o)) (place cfg ps o).
  Proof.
    intros S0 AI L1 L2. destruct (place_cases cfg ps o) as [(-> & _ & _ & CL)|(old & p & -> & CL & H)].
    - apply sane_enter with (hi := hi); auto.
      destruct (sc_continuous cfg) eqn:CO; [|auto]. right. destruct ps as [|p old _] using rev_ind; [reflexivity|].
      specialize (AI CO p (newest_snoc _ _)). specialize (CL p (newest_snoc _ _)). congruence.
    - destruct H as [(D & -> & _)|(D & _ & [(CO & -> & _)|(CO & -> & _)])].
      + eapply sane_mono; [|exact S0]. lia.
      + rewrite app_assoc. eapply sane_reverse; eassumption.
      + eapply sane_leave; eassumption.
  Qed.

  Lemma always_in_place cfg ps o : always_in cfg ps -> always_in cfg (place cfg ps o).
  Proof.
    intros AI CO p N. destruct (place_cases cfg ps o) as [(E & _ & _ & CL)|(old & q & E0 & CL & H)].
    - rewrite E, newest_snoc in N. injection N as <-. apply enter_closed.
    - destruct H as [(D & E & _)|(D & _ & [(_ & E & _)|(CO' & _)])].
      + rewrite E in N. apply AI; assumption.
      + rewrite E, app_assoc, newest_snoc in N. injection N as <-. apply enter_closed.
      + congruence.
  Qed.

  (** What can happen to an existing position. *)
  Definition continues (p p' : position F) : Prop :=
    pos_dir p' = pos_dir p /\ pos_in p' = pos_in p /\ pos_size p' = pos_size p /\ (pos_closed p = true -> p' = p).
  Lemma continues_refl p : continues p p.
  Proof. repeat split. Qed.
  Lemma continues_trans p q r : continues p q -> continues q r -> continues p r.
  Proof.
    intros (A1 & A2 & A3 & A4) (B1 & B2 & B3 & B4). repeat split; try congruence.
    intros C. specialize (A4 C); subst q. apply B4; exact C.
  Qed.
  Lemma place_continues cfg ps o i p : nth_error ps i = Some p ->
    exists p', nth_error (place cfg ps o) i = Some p' /\ continues p p'.
  Proof.
    intros H. destruct (place_cases cfg ps o) as [(-> & _)|(old & q & -> & CL & X)].
    - exists p. split; [apply nth_snoc; left; exact H|apply continues_refl].
    - assert (G : exists p', nth_error (old ++ [leave q o]) i = Some p' /\ continues p p').
      { apply nth_snoc in H. destruct H as [H|[-> ->]].
        - exists p. split; [apply nth_snoc; left; exact H|apply continues_refl].
        - exists (leave q o). split; [apply nth_snoc; right; auto|].
          repeat split; rewrite ?leave_dir, ?leave_in, ?leave_size; try reflexivity. congruence. }
      destruct X as [(_ & -> & _)|(_ & _ & [(_ & -> & _)|(_ & -> & _)])].
      + exists p. split; [exact H|apply continues_refl].
      + destruct G as (p' & G & C). exists p'. split; [|exact C]. rewrite app_assoc. apply nth_snoc; left; exact G.
      + exact G.
  Qed.
  Lemma book_continues cfg ps os i p : nth_error ps i = Some p ->
    exists p', nth_error (fold_left (place cfg) os ps) i = Some p' /\ continues p p'.
  Proof.
    revert ps p; induction os as [|o os IH]; intros ps p H; cbn.
    - exists p; split; [exact H|apply continues_refl].
    - destruct (place_continues cfg ps o i p H) as (p1 & H1 & C1).
      destruct (IH _ _ H1) as (p2 & H2 & C2). exists p2. split; [exact H2|eapply continues_trans; eassumption].
  Qed.

  (** The book reached from a signal history. *)
  Lemma pos_at_sane cfg d i0 sigs : sane cfg i0 (i0 + length sigs) (pos_at cfg d i0 sigs) /\ always_in cfg (pos_at cfg d i0 sigs).
  Proof.
    induction sigs as [|x sigs [IH1 IH2]] using rev_ind.
    - unfold pos_at, orders. destruct (sc_on_close cfg); cbn; (split; [apply sane_nil|intros _ p N; discriminate]).
    - rewrite pos_at_snoc, app_length. cbn [length].
      assert (K : forall o os, new_order cfg d i0 sigs x = o :: os -> otick o = (i0 + length sigs)%nat).
      { intros o os. unfold new_order, order_at. destruct (sc_on_close cfg); [destruct x|destruct (last sigs None)];
          intros E; inversion E; reflexivity. }
      destruct (new_order cfg d i0 sigs x) as [|o os] eqn:E.
      + split; [|exact IH2]. eapply sane_mono; [|exact IH1]. lia.
      + specialize (K o os eq_refl). split; [|apply always_in_place; exact IH2].
        replace (i0 + (length sigs + 1))%nat with (S (otick o)) by lia.
        eapply sane_place; try eassumption; lia.
  Qed.

  Lemma pos_at_app_continues cfg d i0 xs ys i p : nth_error (pos_at cfg d i0 xs) i = Some p ->
    exists p', nth_error (pos_at cfg d i0 (xs ++ ys)) i = Some p' /\ continues p p'.
  Proof.
    induction ys as [|y ys IH] using rev_ind; intros H.
    - rewrite app_nil_r. exists p. split; [exact H|apply continues_refl].
    - destruct (IH H) as (p1 & H1 & C1). rewrite app_assoc, pos_at_snoc.
      destruct (new_order cfg d i0 (xs ++ ys) y) as [|o os].
      + exists p1; split; assumption.
      + destruct (place_continues cfg _ o _ _ H1) as (p2 & H2 & C2). exists p2.
        split; [exact H2|eapply continues_trans; eassumption].
  Qed.
End Book.
