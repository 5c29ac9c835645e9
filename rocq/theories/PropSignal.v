(** * PropSignal: C115, over whole-tick prices the built-in strategies give in f64
    exactly the signals of exact arithmetic. *)
From Flocq Require Import Core IEEE754.BinarySingleNaN.
From Verif Require Export PropWhole PropPipe PropContent4 PropContent1 PropTa3.
From Verif Require Import Inst PContent1 PContent2 PContent3 PExact3 PRound PMono PropSafe SpecCatalogue PropMetrics.
From Coq Require Import Lra Psatz.
Import ListNotations.
Local Open Scope R_scope.

(** ** Specification: signals of a series of real values. *)
(** The value is above [t] at bar [i] and was not above it at the bar before. *)
Definition rises_above (t : R) (vs : list (option R)) i : Prop :=
  exists j v p, i = S j /\ nth_error vs i = Some (Some v) /\ nth_error vs j = Some (Some p) /\ t < v /\ p <= t.
Definition falls_below (t : R) (vs : list (option R)) i : Prop :=
  exists j v p, i = S j /\ nth_error vs i = Some (Some v) /\ nth_error vs j = Some (Some p) /\ v < t /\ t <= p.
(** Long where the value rises above [lo]; Short where it falls below [hi] (and does not rise above [lo]). *)
Definition real_signals (lo hi : R) (vs : list (option R)) (sigs : list (option direction)) : Prop :=
  List.length sigs = List.length vs /\ forall i o, nth_error sigs i = Some o ->
    (o = Some Long <-> rises_above lo vs i) /\ (o = Some Short <-> falls_below hi vs i /\ ~ rises_above lo vs i).
(** Two lines: Long where the first gets above the second, Short where it gets below. *)
Definition line_signals (a b : list (option R)) (sigs : list (option direction)) : Prop :=
  List.length sigs = List.length a /\ forall i o, nth_error sigs i = Some o ->
    (o = Some Long <-> exists j x y x' y', i = S j /\ nth_error a i = Some (Some x) /\ nth_error b i = Some (Some y) /\
       nth_error a j = Some (Some x') /\ nth_error b j = Some (Some y') /\ y < x /\ x' <= y') /\
    (o = Some Short <-> exists j x y x' y', i = S j /\ nth_error a i = Some (Some x) /\ nth_error b i = Some (Some y) /\
       nth_error a j = Some (Some x') /\ nth_error b j = Some (Some y') /\ x < y /\ y' <= x').

(** Such signals are determined by the values. *)
Lemma real_signals_unique lo hi vs s s' : real_signals lo hi vs s -> real_signals lo hi vs s' -> s = s'.
Proof.
  intros [L H] [L' H']. apply nth_error_ext. intros i.
  destruct (nth_error s i) as [o|] eqn:E, (nth_error s' i) as [o'|] eqn:E'.
  - destruct (H i o E) as [A B], (H' i o' E') as [A' B']. f_equal.
    destruct o as [[|]|].
    + symmetry. apply A', A. reflexivity.
    + symmetry. apply B', B. reflexivity.
    + destruct o' as [[|]|]; [apply A, A'; reflexivity|apply B, B'; reflexivity|reflexivity].
  - apply nth_error_None in E'. assert (i < List.length s)%nat by (apply nth_error_Some; rewrite E; discriminate). lia.
  - apply nth_error_None in E. assert (i < List.length s')%nat by (apply nth_error_Some; rewrite E'; discriminate). lia.
  - reflexivity.
Qed.

(** ** From f64 values to real ones. *)
(** [x] is on the same side of [t] as [v]. *)
Definition same_side (t : R) (x : f64) (v : R) : Prop := is_finite x = true /\ (t < B2R x <-> t < v) /\ (B2R x < t <-> v < t).
Definition sides (lo hi : R) (x : option f64) (v : option R) : Prop :=
  match x, v with Some x, Some v => same_side lo x v /\ same_side hi x v | None, None => True | _, _ => False end.
(** The two pairs are in the same order. *)
Definition same_order (x y : f64) (a b : R) : Prop := is_finite x = true /\ is_finite y = true /\ (B2R x < B2R y <-> a < b) /\ (B2R y < B2R x <-> b < a).
Definition orders (x : option f64 * option f64) (v : option R * option R) : Prop :=
  match x, v with
  | (Some x, Some y), (Some a, Some b) => same_order x y a b
  | (None, _), (None, _) | (_, None), (_, None) => True
  | _, _ => False
  end.

(** ** Specification: the exact values of the indicators. *)
(** The mean of the last [len] values, from when there are [len] of them and none of them is missing. *)
Definition mean_of (len : nat) (p : list (option R)) : option R := option_map (fun w => Rsum w / INR len) (window len p).
(** Rises less falls over rises plus falls, in per cent; missing when nothing moved. *)
Definition cmo_of (len : nat) (p : list R) : option R :=
  match full_window len (diffs p) with
  | None => None
  | Some w => let u := total_rise w in let d := total_fall w in if Req_EM_T (u + d) 0 then None else Some (100 * (u - d) / (u + d))
  end.
Definition bop_of (r : rbar5) : option R := if Req_EM_T (rh r) (rl r) then None else Some ((rc r - ro r) / (rh r - rl r)).
Definition vortex_of (f : rbar5 -> rbar5 -> R) (len : nat) (p : list rbar5) : option R :=
  match full_window len (pairs p) with None => None | Some w => vortex_ratio f w end.
(** Where the price [v] is between the highest and the lowest of the last [len] bars [p], from 0 (highest) to -100. *)
Definition wpr_is (len : nat) (p : list rbar5) (v : R) (o : option R) : Prop :=
  match full_window len p with
  | None => o = None
  | Some w => exists u l, is_max u (map rh w) /\ is_min l (map rl w) /\ o = if Req_EM_T u l then None else Some (100 * (v - u) / (u - l))
  end.
(** How far the average of the last [n] is above the average of the last [m], in per cent of the latter. *)
Definition po_of (n m : nat) (p : list (option R)) : option R :=
  match mean_of n p, mean_of m p with Some a, Some b => Some (100 * (a - b) / b) | _, _ => None end.

Section Signal.
  Variable log10 : f64 -> f64.
  #[local] Instance N115 : Num f64 := IEEE log10.
  Lemma ltb_real (x y : f64) : is_finite x = true -> is_finite y = true -> (fltb x y = true <-> B2R x < B2R y).
  Proof.
    intros Fx Fy. change (fltb x y) with (Bltb x y). rewrite Bltb_correct by assumption.
    destruct (Rlt_bool_spec (B2R x) (B2R y)); split; intros Q; try reflexivity; try assumption; try discriminate. exfalso. exact (Rlt_not_le _ _ Q H).
  Qed.
  Lemma leb_real (x y : f64) : is_finite x = true -> is_finite y = true -> (fleb x y = true <-> B2R x <= B2R y).
  Proof.
    intros Fx Fy. change (fleb x y) with (Bleb x y). rewrite Bleb_correct by assumption.
    destruct (Rle_bool_spec (B2R x) (B2R y)); split; intros Q; try reflexivity; try assumption; try discriminate. exfalso. exact (Rlt_not_le _ _ H Q).
  Qed.
  Lemma fZ_real z : (Z.abs z <= 2 ^ 53)%Z -> is_finite (fZ z : f64) = true /\ B2R (fZ z : f64) = IZR z.
  Proof. intros H. change (fZ z : f64) with (f64_ofZ z). destruct (f64_ofZ_correct z H) as [A B]. split; assumption. Qed.

  Lemma forall2_at {A B} (P : A -> B -> Prop) xs ys i : Forall2 P xs ys ->
    match nth_error xs i, nth_error ys i with Some x, Some y => P x y | None, None => True | _, _ => False end.
  Proof. intros H. revert i. induction H as [|x y xs ys Hx H IH]; intros [|i]; cbn [nth_error]; auto. apply IH. Qed.
  Lemma some_some {A} (x : option A) y : Some x = Some (Some y) -> x = Some y. Proof. congruence. Qed.

  Lemma transfer (lo hi : f64) os es sigs : is_finite lo = true -> is_finite hi = true -> Forall2 (sides (B2R lo) (B2R hi)) os es ->
    threshold_signals lo hi os sigs -> real_signals (B2R lo) (B2R hi) es sigs.
  Proof.
    intros FL FH F2 [L H].
    assert (UP : forall i, crosses_above lo os i <-> rises_above (B2R lo) es i).
    { intros i. split.
      - intros (j & v & p & -> & Hv & Hp & Q1 & Q2). exists j. pose proof (forall2_at _ _ _ (S j) F2) as A. pose proof (forall2_at _ _ _ j F2) as B.
        rewrite Hv in A. rewrite Hp in B. destruct (nth_error es (S j)) as [[a|]|]; [|contradiction|contradiction]. destruct (nth_error es j) as [[b|]|]; [|contradiction|contradiction].
        exists a, b. destruct A as [(Fv & A1 & A2) _], B as [(Fp & B1 & B2) _]. apply ltb_real in Q1; [|assumption|assumption]. apply leb_real in Q2; [|assumption|assumption].
        repeat split; [tauto|]. apply Rnot_lt_le. intros C. apply B1 in C. lra.
      - intros (j & a & b & -> & Hv & Hp & Q1 & Q2). exists j. pose proof (forall2_at _ _ _ (S j) F2) as A. pose proof (forall2_at _ _ _ j F2) as B.
        rewrite Hv in A. rewrite Hp in B. destruct (nth_error os (S j)) as [[v|]|]; [|contradiction|contradiction]. destruct (nth_error os j) as [[p|]|]; [|contradiction|contradiction].
        exists v, p. destruct A as [(Fv & A1 & A2) _], B as [(Fp & B1 & B2) _].
        split; [reflexivity|]. split; [reflexivity|]. split; [reflexivity|]. rewrite ltb_real, leb_real by assumption.
        split; [tauto|]. apply Rnot_lt_le. intros C. apply B1 in C. lra. }
    assert (DN : forall i, crosses_below hi os i <-> falls_below (B2R hi) es i).
    { intros i. split.
      - intros (j & v & p & -> & Hv & Hp & Q1 & Q2). exists j. pose proof (forall2_at _ _ _ (S j) F2) as A. pose proof (forall2_at _ _ _ j F2) as B.
        rewrite Hv in A. rewrite Hp in B. destruct (nth_error es (S j)) as [[a|]|]; [|contradiction|contradiction]. destruct (nth_error es j) as [[b|]|]; [|contradiction|contradiction].
        exists a, b. destruct A as [_ (Fv & A1 & A2)], B as [_ (Fp & B1 & B2)]. apply ltb_real in Q1; [|assumption|assumption]. apply leb_real in Q2; [|assumption|assumption].
        repeat split; [tauto|]. apply Rnot_lt_le. intros C. apply B2 in C. lra.
      - intros (j & a & b & -> & Hv & Hp & Q1 & Q2). exists j. pose proof (forall2_at _ _ _ (S j) F2) as A. pose proof (forall2_at _ _ _ j F2) as B.
        rewrite Hv in A. rewrite Hp in B. destruct (nth_error os (S j)) as [[v|]|]; [|contradiction|contradiction]. destruct (nth_error os j) as [[p|]|]; [|contradiction|contradiction].
        exists v, p. destruct A as [_ (Fv & A1 & A2)], B as [_ (Fp & B1 & B2)].
        split; [reflexivity|]. split; [reflexivity|]. split; [reflexivity|]. rewrite ltb_real, leb_real by assumption.
        split; [tauto|]. apply Rnot_lt_le. intros C. apply B2 in C. lra. }
    split; [rewrite L; exact (forall2_len _ _ _ F2)|]. intros i o Ho. destruct (H i o Ho) as [A B]. rewrite UP in A. rewrite UP, DN in B. split; assumption.
  Qed.

  (** the same for two lines. *)
  Lemma transfer_lines os (es : list (option R * option R)) sigs : Forall2 orders os es ->
    List.length sigs = List.length os -> (forall i o, nth_error sigs i = Some o -> (o = Some Long <-> went_over os i) /\ (o = Some Short <-> went_under os i)) ->
    line_signals (map fst es) (map snd es) sigs.
  Proof.
    intros F2 L H. split; [rewrite map_length, L; exact (forall2_len _ _ _ F2)|]. intros i o Ho. destruct (H i o Ho) as [A B].
    assert (N1 : forall k x, nth_error (map fst es) k = Some x <-> exists y, nth_error es k = Some (x, y)).
    { intros k x. rewrite nth_error_map. destruct (nth_error es k) as [[u v]|]; cbn; split; intros Q; [injection Q as ->; eauto|destruct Q as (y & Q); congruence|discriminate|destruct Q as (y & Q); discriminate]. }
    assert (N2 : forall k x, nth_error (map snd es) k = Some x <-> exists y, nth_error es k = Some (y, x)).
    { intros k x. rewrite nth_error_map. destruct (nth_error es k) as [[u v]|]; cbn; split; intros Q; [injection Q as ->; eauto|destruct Q as (y & Q); congruence|discriminate|destruct Q as (y & Q); discriminate]. }
    assert (BACK : forall k x y, nth_error (map fst es) k = Some (Some x) -> nth_error (map snd es) k = Some (Some y) ->
              exists u v, nth_error os k = Some (Some u, Some v) /\ same_order u v x y).
    { intros k x y H1 H2. apply N1 in H1. apply N2 in H2. destruct H1 as (y' & H1), H2 as (x' & H2). rewrite H1 in H2. injection H2 as <- ->.
      pose proof (forall2_at _ _ _ k F2) as Q. rewrite H1 in Q. destruct (nth_error os k) as [[[u|] [v|]]|]; cbn [orders] in Q; try contradiction. eauto. }
    assert (FWD : forall k u v, nth_error os k = Some (Some u, Some v) ->
              exists x y, nth_error (map fst es) k = Some (Some x) /\ nth_error (map snd es) k = Some (Some y) /\ same_order u v x y).
    { intros k u v Hk. pose proof (forall2_at _ _ _ k F2) as Q. rewrite Hk in Q. destruct (nth_error es k) as [[[x|] [y|]]|] eqn:E; cbn [orders] in Q; try contradiction.
      exists x, y. split; [apply N1; eauto|]. split; [apply N2; eauto|exact Q]. }
    split.
    - rewrite A. unfold went_over, lines. split.
      + intros (j & a & b & pa & pb & -> & H1 & H2 & Q1 & Q2). destruct (FWD _ _ _ H1) as (x & y & E1 & E2 & (Fa & Fb & O1 & O2)), (FWD _ _ _ H2) as (x' & y' & E3 & E4 & (Fa' & Fb' & O3 & O4)).
        exists j, x, y, x', y'. apply ltb_real in Q1; [|assumption|assumption]. apply leb_real in Q2; [|assumption|assumption].
        repeat split; try assumption; [tauto|]. apply Rnot_lt_le. intros C. apply O4 in C. lra.
      + intros (j & x & y & x' & y' & -> & H1 & H2 & H3 & H4 & Q1 & Q2). destruct (BACK _ _ _ H1 H2) as (u & v & E1 & (Fa & Fb & O1 & O2)), (BACK _ _ _ H3 H4) as (u' & v' & E2 & (Fa' & Fb' & O3 & O4)).
        exists j, u, v, u', v'. split; [reflexivity|]. split; [exact E1|]. split; [exact E2|]. rewrite ltb_real, leb_real by assumption. split; [tauto|]. apply Rnot_lt_le. intros C. apply O4 in C. lra.
    - rewrite B. unfold went_under, lines. split.
      + intros (j & a & b & pa & pb & -> & H1 & H2 & Q1 & Q2). destruct (FWD _ _ _ H1) as (x & y & E1 & E2 & (Fa & Fb & O1 & O2)), (FWD _ _ _ H2) as (x' & y' & E3 & E4 & (Fa' & Fb' & O3 & O4)).
        exists j, x, y, x', y'. apply ltb_real in Q1; [|assumption|assumption]. apply leb_real in Q2; [|assumption|assumption].
        repeat split; try assumption; [tauto|]. apply Rnot_lt_le. intros C. apply O3 in C. lra.
      + intros (j & x & y & x' & y' & -> & H1 & H2 & H3 & H4 & Q1 & Q2). destruct (BACK _ _ _ H1 H2) as (u & v & E1 & (Fa & Fb & O1 & O2)), (BACK _ _ _ H3 H4) as (u' & v' & E2 & (Fa' & Fb' & O3 & O4)).
        exists j, u, v, u', v'. split; [reflexivity|]. split; [exact E1|]. split; [exact E2|]. rewrite ltb_real, leb_real by assumption. split; [tauto|]. apply Rnot_lt_le. intros C. apply O3 in C. lra.
  Qed.

  (** ** Rounded ratios are in the order of the ratios. *)
  Lemma near_err (x : f64) v : nearest_to x v -> Rabs (B2R x - v) <= u64 * Rabs v + eta64.
  Proof. intros [_ ->]. exact (rnd_err v). Qed.
  Lemma near_le (x y : f64) v w : nearest_to x v -> nearest_to y w -> v <= w -> B2R x <= B2R y.
  Proof. intros [_ ->] [_ ->] H. exact (rnd_le _ _ H). Qed.
  Lemma near_eq (x y : f64) v w : nearest_to x v -> nearest_to y w -> v = w -> B2R x = B2R y.
  Proof. intros [_ ->] [_ ->] ->. reflexivity. Qed.
  Lemma near_gap (x y : f64) v w : nearest_to x v -> nearest_to y w -> u64 * (Rabs v + Rabs w) + 2 * eta64 < w - v -> B2R x < B2R y.
  Proof.
    intros X Y H. apply near_err in X, Y. pose proof (Rle_abs (B2R x - v)) as P1. pose proof (Rle_abs (- (B2R y - w))) as P2. rewrite Rabs_Ropp in P2.
    revert X Y H P1 P2. generalize (Rabs (B2R x - v)) (Rabs (B2R y - w)) (B2R x) (B2R y) u64 eta64 (Rabs v) (Rabs w). intros a b x' y' u t p q. intros. lra.
  Qed.
  Section Ratio.
    Variables (e p q t : Z).
    Hypothesis E1 : (-1000 <= e)%Z.
    Hypothesis T1 : (0 < t <= 2 ^ 53)%Z.
    Hypothesis PQ : (8 * (Z.abs p + Z.abs q) <= 7 * 2 ^ 53)%Z.
    Let a := IZR p / IZR t * bpow radix2 e.
    Let b := IZR q / IZR t * bpow radix2 e.
    Lemma ratio_gap : (p < q)%Z -> u64 * (Rabs a + Rabs b) + 2 * eta64 + bpow radix2 e / (16 * IZR t) <= b - a.
    Proof.
      intros L. assert (TP : 1 <= IZR t) by (apply IZR_le; lia). assert (TM : IZR t <= bpow radix2 53) by (change (bpow radix2 53) with (IZR (2 ^ 53)); apply IZR_le; lia).
      assert (TI : 0 < / IZR t) by (apply Rinv_0_lt_compat; lra).
      pose proof (bpow_gt_0 radix2 e) as U. set (u := bpow radix2 e) in *.
      assert (PR : 8 * (Rabs (IZR p) + Rabs (IZR q)) <= 7 * bpow radix2 53).
      { change (bpow radix2 53) with (IZR (2 ^ 53)). rewrite <- !abs_IZR, <- plus_IZR, <- !mult_IZR. apply IZR_le. exact PQ. }
      assert (LR : 1 <= IZR q - IZR p) by (rewrite <- minus_IZR; apply IZR_le; lia).
      assert (UB : u64 * bpow radix2 53 = 1) by (unfold u64; rewrite <- bpow_plus; reflexivity).
      assert (EB : 32 * eta64 * IZR t <= u).
      { apply Rle_trans with (32 * eta64 * bpow radix2 53); [apply Rmult_le_compat_l; [unfold eta64; pose proof (bpow_gt_0 radix2 (-1075)); lra|exact TM]|].
        change 32 with (bpow radix2 5). unfold eta64, u. rewrite <- !bpow_plus. apply bpow_le. lia. }
      assert (AA : Rabs a = Rabs (IZR p) * / IZR t * u) by (unfold a, Rdiv; rewrite !Rabs_mult, (Rabs_pos_eq (/ IZR t)), (Rabs_pos_eq u) by lra; reflexivity).
      assert (AB : Rabs b = Rabs (IZR q) * / IZR t * u) by (unfold b, Rdiv; rewrite !Rabs_mult, (Rabs_pos_eq (/ IZR t)), (Rabs_pos_eq u) by lra; reflexivity).
      rewrite AA, AB. assert (U6 : 0 < u64) by apply bpow_gt_0.
      assert (H1 : u64 * (Rabs (IZR p) + Rabs (IZR q)) <= 7 / 8).
      { apply Rle_trans with (u64 * (7 / 8 * bpow radix2 53)); [apply Rmult_le_compat_l; lra|]. replace (u64 * (7 / 8 * bpow radix2 53)) with (7 / 8 * (u64 * bpow radix2 53)) by ring. rewrite UB. lra. }
      assert (H2 : 2 * eta64 <= u * / IZR t / 16).
      { apply (Rmult_le_reg_r (IZR t)); [lra|]. replace (u * / IZR t / 16 * IZR t) with (u / 16) by (field; lra). lra. }
      replace (b - a) with ((IZR q - IZR p) * (/ IZR t * u)) by (unfold a, b; field; lra).
      assert (TU : 0 < / IZR t * u) by (apply Rmult_lt_0_compat; lra).
      replace (u64 * (Rabs (IZR p) * / IZR t * u + Rabs (IZR q) * / IZR t * u)) with (u64 * (Rabs (IZR p) + Rabs (IZR q)) * (/ IZR t * u)) by ring.
      replace (u / (16 * IZR t)) with (/ 16 * (/ IZR t * u)) by (field; lra).
      assert (H3 : u64 * (Rabs (IZR p) + Rabs (IZR q)) * (/ IZR t * u) <= 7 / 8 * (/ IZR t * u)) by (apply Rmult_le_compat_r; lra).
      assert (H4 : 1 * (/ IZR t * u) <= (IZR q - IZR p) * (/ IZR t * u)) by (apply Rmult_le_compat_r; lra).
      replace (u * / IZR t / 16) with (/ 16 * (/ IZR t * u)) in H2 by (field; lra). lra.
    Qed.
    Lemma ratio_sign : (a < b <-> (p < q)%Z) /\ (a = b <-> p = q).
    Proof.
      assert (TP : 1 <= IZR t) by (apply IZR_le; lia). pose proof (bpow_gt_0 radix2 e) as U.
      assert (G : b - a = (IZR q - IZR p) * (/ IZR t * bpow radix2 e)) by (unfold a, b; field; lra).
      assert (TU : 0 < / IZR t * bpow radix2 e) by (apply Rmult_lt_0_compat; [apply Rinv_0_lt_compat; lra|exact U]).
      split; split.
      - intros H. apply lt_IZR. apply Rnot_le_lt. intros C. assert ((IZR q - IZR p) * (/ IZR t * bpow radix2 e) <= 0); [|lra].
        rewrite <- (Rmult_0_l (/ IZR t * bpow radix2 e)). apply Rmult_le_compat_r; lra.
      - intros H. apply IZR_lt in H. assert (0 < (IZR q - IZR p) * (/ IZR t * bpow radix2 e)) by (apply Rmult_lt_0_compat; lra). lra.
      - intros H. apply eq_IZR. assert (Z : (IZR q - IZR p) * (/ IZR t * bpow radix2 e) = 0) by lra. apply Rmult_integral in Z. destruct Z; lra.
      - unfold a, b. intros ->. reflexivity.
    Qed.
  End Ratio.
  Lemma ratio_lt e p q t (x y : f64) : (-1000 <= e)%Z -> (0 < t <= 2 ^ 53)%Z -> (8 * (Z.abs p + Z.abs q) <= 7 * 2 ^ 53)%Z ->
    nearest_to x (IZR p / IZR t * bpow radix2 e) -> nearest_to y (IZR q / IZR t * bpow radix2 e) -> (p < q)%Z ->
    B2R x < B2R y.
  Proof.
    intros E1 T1 PQ X Y L. apply (near_gap _ _ _ _ X Y). pose proof (ratio_gap e p q t E1 T1 PQ L) as G. cbv zeta in G.
    assert (0 < bpow radix2 e / (16 * IZR t)); [|lra]. apply Rdiv_lt_0_compat; [apply bpow_gt_0|]. assert (1 <= IZR t) by (apply IZR_le; lia). lra.
  Qed.
  Lemma ratio_order e p q t (x y : f64) : (-1000 <= e)%Z -> (0 < t <= 2 ^ 53)%Z -> (8 * (Z.abs p + Z.abs q) <= 7 * 2 ^ 53)%Z ->
    nearest_to x (IZR p / IZR t * bpow radix2 e) -> nearest_to y (IZR q / IZR t * bpow radix2 e) ->
    same_order x y (IZR p / IZR t * bpow radix2 e) (IZR q / IZR t * bpow radix2 e).
  Proof.
    intros E1 T1 PQ X Y. split; [apply X|]. split; [apply Y|].
    assert (PQ' : (8 * (Z.abs q + Z.abs p) <= 7 * 2 ^ 53)%Z) by lia.
    pose proof (ratio_sign e p q t T1 PQ) as SS. cbv zeta in SS. destruct SS as [S1 S2]. pose proof (ratio_sign e q p t T1 PQ') as SS. cbv zeta in SS. destruct SS as [S3 S4].
    destruct (Z.lt_trichotomy p q) as [L|[L|L]].
    - pose proof (ratio_lt e p q t x y E1 T1 PQ X Y L). apply S1 in L. split; split; intros; lra.
    - subst q. pose proof (near_eq _ _ _ _ X Y eq_refl) as Q. split; split; intros; lra.
    - pose proof (ratio_lt e q p t y x E1 T1 PQ' Y X L). apply S3 in L. split; split; intros; lra.
  Qed.
  (** An integer threshold. *)
  Lemma ratio_side p t k (x : f64) : (0 < t <= 2 ^ 53)%Z -> (Z.abs k <= 2 ^ 53)%Z -> (8 * (Z.abs p + Z.abs (k * t)) <= 7 * 2 ^ 53)%Z ->
    nearest_to x (IZR p / IZR t) -> same_side (IZR k) x (IZR p / IZR t).
  Proof.
    intros T1 K PQ X. destruct (fZ_real k K) as [FK VK].
    assert (Y : nearest_to (fZ k) (IZR (k * t) / IZR t * bpow radix2 0)).
    { split; [exact FK|]. rewrite VK. assert (1 <= IZR t) by (apply IZR_le; lia). replace (IZR (k * t) / IZR t * bpow radix2 0) with (IZR k) by (rewrite mult_IZR; cbn [bpow]; field; lra).
      symmetry. apply round_generic; [apply valid_rnd_N|]. rewrite <- VK. apply generic_format_B2R. }
    assert (X' : nearest_to x (IZR p / IZR t * bpow radix2 0)) by (cbn [bpow]; rewrite Rmult_1_r; exact X).
    destruct (ratio_order 0 p (k * t) t x (fZ k) ltac:(lia) T1 PQ X' Y) as (F1 & _ & O1 & O2).
    assert (V : IZR (k * t) / IZR t * bpow radix2 0 = IZR k) by (assert (1 <= IZR t) by (apply IZR_le; lia); rewrite mult_IZR; cbn [bpow]; field; lra).
    rewrite V, VK in *. cbn [bpow] in O1, O2. rewrite Rmult_1_r in O1, O2. split; [exact F1|]. split; assumption.
  Qed.

  Lemma ratio_side' p t k (x : f64) : t <> 0%Z -> (Z.abs t <= 2 ^ 53)%Z -> (Z.abs k <= 2 ^ 53)%Z -> (8 * (Z.abs p + Z.abs (k * t)) <= 7 * 2 ^ 53)%Z ->
    nearest_to x (IZR p / IZR t) -> same_side (IZR k) x (IZR p / IZR t).
  Proof.
    intros T0 T1 K PQ X. destruct (Z.lt_trichotomy t 0) as [L|[L|L]]; [|contradiction|apply ratio_side; try assumption; lia].
    assert (EQ : IZR p / IZR t = IZR (- p) / IZR (- t)) by (rewrite !opp_IZR; field; apply not_0_IZR; exact T0). rewrite EQ in *.
    apply ratio_side; try assumption; lia.
  Qed.
  Lemma forall2_from {A B} (P : A -> B -> Prop) xs ys : List.length xs = List.length ys ->
    (forall i x y, nth_error xs i = Some x -> nth_error ys i = Some y -> P x y) -> Forall2 P xs ys.
  Proof.
    revert ys. induction xs as [|x xs IH]; intros [|y ys] L H; try discriminate; constructor.
    - exact (H 0%nat x y eq_refl eq_refl).
    - apply IH; [cbn in L; lia|]. intros i. exact (H (S i)).
  Qed.

  Variable e : Z.
  Hypothesis E1 : (-1000 <= e <= 960)%Z.
  Let E0 : (-1074 <= e <= 970)%Z. Proof. lia. Qed.
  Notation tk := (ticks_of e).
  (** reals that are whole numbers of ticks. *)
  Definition rt (b : Z) (v : R) : Prop := exists z, v = IZR z * bpow radix2 e /\ (Z.abs z <= b)%Z.
  Lemma tk_rt b x : tk b x -> rt b (B2R x). Proof. intros (_ & H). exact H. Qed.
  Lemma rt_sub a b x y : rt a x -> rt b y -> rt (a + b) (x - y).
  Proof. intros (z & -> & Hz) (w & -> & Hw). exists (z - w)%Z. split; [rewrite minus_IZR; ring|lia]. Qed.
  Lemma rt_abs a x : rt a x -> rt a (Rabs x).
  Proof. intros (z & -> & Hz). exists (Z.abs z). split; [rewrite Rabs_mult, abs_IZR, (Rabs_pos_eq (bpow radix2 e)) by apply bpow_ge_0; reflexivity|lia]. Qed.
  Lemma rt_max0 a x : rt a x -> rt a (Rmax x 0).
  Proof.
    intros (z & -> & Hz). unfold Rmax. destruct (Rle_dec _ _); [exists 0%Z; split; [ring|lia]|exists z; split; [reflexivity|exact Hz]].
  Qed.
  Lemma rt_opp a x : rt a x -> rt a (- x).
  Proof. intros (z & -> & Hz). exists (- z)%Z. split; [rewrite opp_IZR; ring|lia]. Qed.
  Lemma rt_sum a l : Forall (rt a) l -> rt (Z.of_nat (List.length l) * a) (Rsum l).
  Proof.
    induction 1 as [|x l (z & -> & Hz) _ (w & Ew & Hw)]; cbn [Rsum List.length]; [exists 0%Z; split; [cbn; ring|lia]|].
    exists (z + w)%Z. split; [cbn [Rsum]; rewrite Ew, plus_IZR; ring|lia].
  Qed.
  Lemma rt_ratio a b x y : rt a x -> rt b y -> y <> 0 -> exists p t, x / y = IZR p / IZR t /\ t <> 0%Z /\ (Z.abs p <= a)%Z /\ (Z.abs t <= b)%Z.
  Proof.
    intros (z & -> & Hz) (w & -> & Hw) N. pose proof (bpow_gt_0 radix2 e). exists z, w.
    assert (w <> 0%Z) by (intros ->; apply N; ring). assert (IZR w <> 0) by (apply not_0_IZR; assumption). split; [field; split; lra|]. auto.
  Qed.

  (** ** Balance of power *)
  Lemma whole_rt A b : whole_bar e A b -> rt A (ro (real_bar b)) /\ rt A (rh (real_bar b)) /\ rt A (rl (real_bar b)) /\ rt A (rc (real_bar b)).
  Proof.
    intros (o & h & l & c & H1 & H2 & H3 & H4 & T1 & T2 & T3 & T4). unfold real_bar. cbn [ro rh rl rc]. rewrite H1, H2, H3, H4. cbn [value_of].
    split; [|split; [|split]]; apply tk_rt; assumption.
  Qed.
  Lemma nearest_0 (x : f64) : nearest_to x 0 -> B2R x = 0. Proof. intros [_ ->]. apply round_0. apply valid_rnd_N. Qed.
  Lemma thr_default lo hi (c : ctx f64) os es : (Z.abs lo <= 2 ^ 53)%Z -> (Z.abs hi <= 2 ^ 53)%Z -> Forall2 (sides (IZR lo) (IZR hi)) os es ->
    exists sigs, run thr_step c (thr_new (fZ lo) (fZ hi)) os = Ok sigs /\ real_signals (IZR lo) (IZR hi) es sigs.
  Proof.
    intros H1 H2 F2. destruct (thr_signals c (fZ lo) (fZ hi) os) as (sigs & R & T). exists sigs. split; [exact R|].
    destruct (fZ_real lo H1) as [F1 V1], (fZ_real hi H2) as [F3 V3]. rewrite <- V1, <- V3. rewrite <- V1, <- V3 in F2. exact (transfer _ _ _ _ _ F1 F3 F2 T).
  Qed.
  Theorem C115_bop A c bs : (8 * A < 2 ^ 53)%Z -> Forall (whole_bar e A) bs -> fresh_over c bs ->
    exists os sigs, run bop_step c tt (ticks (List.length bs)) = Ok os /\ run thr_step c zero_strategy_default os = Ok sigs /\
      real_signals 0 0 (map bop_of (map real_bar bs)) sigs.
  Proof.
    intros LB W H. destruct (C113_bop log10 e E0 A c bs ltac:(lia) W H) as (os & R1 & R2 & R3). exists os.
    assert (F2 : Forall2 (sides (IZR 0) (IZR 0)) os (map bop_of (map real_bar bs))).
    { apply forall2_from; [rewrite !map_length; exact R2|]. intros i x y Hx Hy. rewrite map_map in Hy. rewrite nth_error_map in Hy.
      destruct (nth_error bs i) as [b|] eqn:Hb; [|discriminate]. cbn [option_map] in Hy. apply some_eq in Hy. subst y.
      destruct (R3 i b x Hb Hx) as [Q1 Q2]. unfold bop_of. destruct (Req_EM_T _ _) as [Q|Q]; [rewrite (Q1 Q); exact Logic.I|].
      destruct (Q2 Q) as (v & -> & N & _). cbn [sides]. rewrite Forall_forall in W. destruct (whole_rt A b (W b (nth_error_In _ _ Hb))) as (T1 & T2 & T3 & T4).
      destruct (rt_ratio _ _ _ _ (rt_sub _ _ _ _ T4 T1) (rt_sub _ _ _ _ T2 T3) ltac:(lra)) as (p & t & EQ & T0 & BP & BT). rewrite EQ in *.
      assert (SS : same_side (IZR 0) v (IZR p / IZR t)) by (apply ratio_side'; try assumption; lia). split; exact SS. }
    destruct (thr_default 0 0 c os _ ltac:(lia) ltac:(lia) F2) as (sigs & R & RS). exists sigs. split; [exact R1|]. split; [exact R|exact RS].
  Qed.

  (** ** Chande momentum oscillator *)
  Lemma rise_fall ds : total_rise ds + total_fall ds = Rsum (map Rabs ds).
  Proof.
    unfold total_rise, total_fall. induction ds as [|d ds IH]; cbn [map Rsum]; [lra|]. rewrite <- IH. unfold Rmax, Rabs. destruct (Rle_dec d 0), (Rle_dec (- d) 0), (Rcase_abs d); lra.
  Qed.
  Lemma diffs_rt A vs : Forall (rt A) vs -> Forall (rt (2 * A)) (diffs vs).
  Proof.
    intros H. induction H as [|x l Hx H IH]; [constructor|]. destruct l as [|y l]; [constructor|]. cbn [diffs] in *. constructor; [|exact IH].
    inversion H; subst. replace (2 * A)%Z with (A + A)%Z by lia. apply rt_sub; assumption.
  Qed.
  Lemma lastn_all {X} (P : X -> Prop) n l : Forall P l -> Forall P (lastn n l).
  Proof. rewrite !Forall_forall. intros H x I. apply H. unfold lastn in I. rewrite <- (firstn_skipn (List.length l - n) l). apply in_or_app. right. exact I. Qed.
  Lemma full_window_all {X} (P : X -> Prop) n l w : Forall P l -> full_window n l = Some w -> Forall P w /\ List.length w = n.
  Proof.
    intros H E. unfold full_window in E. destruct (n <=? List.length l)%nat eqn:L; [|discriminate]. apply Nat.leb_le in L. apply some_eq in E. subst w. split; [apply lastn_all, H|].
    unfold lastn. rewrite skipn_length. lia.
  Qed.
  Lemma all_zero_sum ds : Forall (fun d => d = 0) ds <-> total_rise ds + total_fall ds = 0.
  Proof. symmetry. apply nothing_moved. Qed.
  Lemma cmo_sides A len (v : f64) w lo hi : (1 <= A)%Z -> (400 * Z.of_nat len * A < 2 ^ 53)%Z -> (Z.abs lo <= 50)%Z -> (Z.abs hi <= 50)%Z ->
    Forall (rt (2 * A)) w -> List.length w = len -> total_rise w + total_fall w <> 0 ->
    nearest_to v (100 * (total_rise w - total_fall w) / (total_rise w + total_fall w)) ->
    same_side (IZR lo) v (100 * (total_rise w - total_fall w) / (total_rise w + total_fall w)) /\ same_side (IZR hi) v (100 * (total_rise w - total_fall w) / (total_rise w + total_fall w)).
  Proof.
    intros A1 LB HL HH HW LN NZ N.
    assert (SU : rt (Z.of_nat len * (2 * A)) (Rsum (map Rabs w))).
    { rewrite <- LN, <- (map_length Rabs). apply rt_sum. rewrite Forall_map. eapply Forall_impl; [|exact HW]. intros x. apply rt_abs. }
    assert (SR : rt (Z.of_nat len * (2 * A)) (total_rise w)).
    { rewrite <- LN, <- (map_length (fun d => Rmax d 0)). apply rt_sum. rewrite Forall_map. eapply Forall_impl; [|exact HW]. intros x. apply rt_max0. }
    rewrite rise_fall in *. pose proof (total_rise_nonneg w) as P1. pose proof (total_fall_nonneg w) as P2. pose proof (rise_fall w) as RF.
    destruct SU as (t & ET & BT), SR as (z & EZ & BZ). pose proof (bpow_gt_0 radix2 e) as U.
    assert (FW : total_fall w = (IZR t - IZR z) * bpow radix2 e) by lra.
    assert (TP : (0 < t)%Z). { apply lt_IZR. apply (Rmult_lt_reg_r (bpow radix2 e)); [exact U|]. rewrite Rmult_0_l, <- ET. pose proof (rise_fall w). lra. }
    assert (ZP : (0 <= z)%Z). { apply le_IZR. apply (Rmult_le_reg_r (bpow radix2 e)); [exact U|]. rewrite Rmult_0_l, <- EZ. exact P1. }
    assert (ZT : (z <= t)%Z). { apply le_IZR. apply (Rmult_le_reg_r (bpow radix2 e)); [exact U|]. lra. }
    assert (EQ : 100 * (total_rise w - total_fall w) / Rsum (map Rabs w) = IZR (100 * (z - (t - z))) / IZR t).
    { rewrite ET, EZ, FW, mult_IZR, !minus_IZR. assert (IZR t <> 0) by (apply not_0_IZR; lia). field. split; lra. }
    rewrite EQ in *.
    assert (G : forall k, (Z.abs k <= 50)%Z -> same_side (IZR k) v (IZR (100 * (z - (t - z))) / IZR t)).
    { intros k K. apply ratio_side; [nia|lia| |exact N].
      assert ((Z.abs (100 * (z - (t - z))) <= 100 * t)%Z) by lia. assert ((Z.abs (k * t) <= 50 * t)%Z) by (rewrite Z.abs_mul, (Z.abs_eq t) by lia; nia). nia. }
    split; apply G; assumption.
  Qed.
  Theorem C115_cmo A len c src vs : (2 <= len)%nat -> (400 * Z.of_nat len * A < 2 ^ 53)%Z -> (1 <= A)%Z -> Forall (tk A) vs -> feeds c src (map Some vs) ->
    exists os sigs, run_new (cmo_new src len) cmo_step c (ticks (List.length vs)) = Ok os /\ run thr_step c cmo_strategy_default os = Ok sigs /\
      real_signals (-50) 50 (each_prefix (cmo_of len) (map B2R vs)) sigs.
  Proof.
    intros L LB A1 W H. destruct (C113_cmo log10 e E0 A len c src vs L LB ltac:(lia) W H) as (os & R1 & R2 & R3). exists os.
    assert (F2 : Forall2 (sides (IZR (-50)) (IZR 50)) os (each_prefix (cmo_of len) (map B2R vs))).
    { apply forall2_from; [rewrite length_each_prefix, map_length; exact R2|]. intros i x y Hx Hy. apply nth_each in Hy. destruct Hy as [Li ->].
      specialize (R3 i x Hx). unfold cmo_of. destruct (full_window len (diffs (firstn (S i) (map B2R vs)))) as [w|] eqn:EW; [|rewrite R3; exact Logic.I].
      destruct R3 as [Q1 Q2]. cbv zeta in *. rewrite all_zero_sum in Q1, Q2.
      destruct (Req_EM_T (total_rise w + total_fall w) 0) as [Q|Q]; [rewrite (Q1 Q); exact Logic.I|]. destruct (Q2 Q) as (v & -> & N & _).
      assert (HD : Forall (rt (2 * A)) (diffs (firstn (S i) (map B2R vs)))).
      { apply diffs_rt. rewrite firstn_map, Forall_map, Forall_forall. intros u I. apply tk_rt. rewrite Forall_forall in W. apply W. exact (firstn_In _ _ _ I). }
      destruct (full_window_all _ _ _ _ HD EW) as [HW LN].
      exact (cmo_sides A len v w (-50) 50 A1 LB ltac:(lia) ltac:(lia) HW LN Q N). }
    destruct (thr_default (-50) 50 c os _ ltac:(lia) ltac:(lia) F2) as (sigs & R & RS). exists sigs. split; [exact R1|]. split; [exact R|exact RS].
  Qed.

  (** ** Vortex *)
  Lemma pairs_in {X} (l : list X) p : In p (pairs l) -> In (fst p) l /\ In (snd p) l.
  Proof.
    induction l as [|x l IH]; [intros []|]. destruct l as [|y l]; [intros []|]. cbn [pairs]. intros [<-|I]; [split; [left|right; left]; reflexivity|].
    destruct (IH I) as [I1 I2]. split; right; assumption.
  Qed.
  Lemma rt_max a x y : rt a x -> rt a y -> rt a (Rmax x y).
  Proof. intros H1 H2. unfold Rmax. destruct (Rle_dec x y); assumption. Qed.
  Lemma lines_default (c : ctx f64) os (es : list (option R * option R)) : Forall2 orders os es ->
    exists sigs, run cross_strategy_step c cross_new os = Ok sigs /\ line_signals (map fst es) (map snd es) sigs.
  Proof.
    intros F2. destruct (C50_line_cross c os) as (sigs & R1 & R2 & R3). exists sigs. split; [exact R1|]. exact (transfer_lines _ _ _ F2 R2 R3).
  Qed.
  Lemma map_pairs {X} (f g : X -> option R) l : map fst (map (fun x => (f x, g x)) l) = map f l /\ map snd (map (fun x => (f x, g x)) l) = map g l.
  Proof. rewrite !map_map. split; reflexivity. Qed.
  Lemma each_prefix_pair {X} (f g : list X -> option R) l :
    map fst (each_prefix (fun p => (f p, g p)) l) = each_prefix f l /\ map snd (each_prefix (fun p => (f p, g p)) l) = each_prefix g l.
  Proof.
    split; apply nth_error_ext; intros i; rewrite nth_error_map.
    - destruct (Nat.lt_ge_cases i (List.length l)) as [L|L]; [rewrite !nth_error_each_prefix by exact L; reflexivity|].
      rewrite !(proj2 (nth_error_None _ _)) by (rewrite length_each_prefix; exact L). reflexivity.
    - destruct (Nat.lt_ge_cases i (List.length l)) as [L|L]; [rewrite !nth_error_each_prefix by exact L; reflexivity|].
      rewrite !(proj2 (nth_error_None _ _)) by (rewrite length_each_prefix; exact L). reflexivity.
  Qed.
  Theorem C115_vortex A len c bs : (1 <= len)%nat -> (0 <= A)%Z -> (8 * (Z.of_nat len + 1) * A < 2 ^ 53)%Z -> Forall (whole_bar e A) bs -> fresh_over c bs ->
    exists os sigs, run_new (vortex_new len) vortex_step c (ticks (List.length bs)) = Ok os /\ run cross_strategy_step c cross_new os = Ok sigs /\
      line_signals (each_prefix (vortex_of Rvp len) (map real_bar bs)) (each_prefix (vortex_of Rvm len) (map real_bar bs)) sigs.
  Proof.
    intros L A0 LB W H. destruct (C113_vortex log10 e E0 A len c bs L A0 ltac:(lia) W H) as (os & R1 & R2 & R3). exists os.
    destruct (each_prefix_pair (vortex_of Rvp len) (vortex_of Rvm len) (map real_bar bs)) as [EP1 EP2]. rewrite <- EP1, <- EP2.
    destruct (lines_default c os (each_prefix (fun p => (vortex_of Rvp len p, vortex_of Rvm len p)) (map real_bar bs))) as (sigs & RS & LS).
    2:{ exists sigs. split; [exact R1|]. split; [exact RS|exact LS]. }
    apply forall2_from; [rewrite length_each_prefix, map_length; exact R2|]. intros i x y Hx Hy. apply nth_each in Hy. destruct Hy as [Li ->].
    specialize (R3 i x Hx). unfold vortex_of. destruct (full_window len (pairs (firstn (S i) (map real_bar bs)))) as [w|] eqn:EW; [|rewrite R3; exact Logic.I].
    destruct R3 as [S1 S2]. destruct x as [x1 x2]. cbn [fst snd] in S1, S2. unfold vortex_ratio in *. cbv zeta in *.
    assert (HP : Forall (fun p => exists b1 b2, whole_bar e A b1 /\ whole_bar e A b2 /\ p = (real_bar b1, real_bar b2)) (pairs (firstn (S i) (map real_bar bs)))).
    { apply Forall_forall. intros [p1 p2] I. apply pairs_in in I. cbn [fst snd] in I. destruct I as [I1 I2]. apply firstn_In in I1, I2. apply in_map_iff in I1, I2.
      destruct I1 as (b1 & <- & I1), I2 as (b2 & <- & I2). rewrite Forall_forall in W. exists b1, b2. auto. }
    destruct (full_window_all _ _ _ _ HP EW) as [HW LN].
    assert (G : forall f, (forall b1 b2, whole_bar e A b1 -> whole_bar e A b2 -> rt (2 * A) (f (real_bar b1) (real_bar b2))) ->
              rt (Z.of_nat len * (2 * A)) (Rsum (map (fun p => f (fst p) (snd p)) w))).
    { intros f HF. rewrite <- LN, <- (map_length (fun p => f (fst p) (snd p)) w). apply rt_sum. rewrite Forall_map. eapply Forall_impl; [|exact HW].
      intros p (b1 & b2 & W1 & W2 & ->). cbn [fst snd]. apply HF; assumption. }
    assert (T2 : (2 * A = A + A)%Z) by lia.
    assert (GP : rt (Z.of_nat len * (2 * A)) (Rsum (map (fun p => Rvp (fst p) (snd p)) w))).
    { apply G. intros b1 b2 W1 W2. destruct (whole_rt _ _ W1) as (_ & _ & U1 & _), (whole_rt _ _ W2) as (_ & U2 & _). unfold Rvp. rewrite T2. apply rt_abs, rt_sub; assumption. }
    assert (GM : rt (Z.of_nat len * (2 * A)) (Rsum (map (fun p => Rvm (fst p) (snd p)) w))).
    { apply G. intros b1 b2 W1 W2. destruct (whole_rt _ _ W1) as (_ & U1 & _ & _), (whole_rt _ _ W2) as (_ & _ & U2 & _). unfold Rvm. rewrite T2. apply rt_abs, rt_sub; assumption. }
    assert (GT : rt (Z.of_nat len * (2 * A)) (Rsum (map (fun p => Rtr (fst p) (snd p)) w))).
    { apply G. intros b1 b2 W1 W2. destruct (whole_rt _ _ W1) as (_ & _ & _ & U1), (whole_rt _ _ W2) as (_ & U2 & U3 & _). unfold Rtr. rewrite T2.
      apply rt_max; [apply rt_max|]; [|apply rt_abs|apply rt_abs]; apply rt_sub; assumption. }
    assert (TN : 0 <= Rsum (map (fun p => Rtr (fst p) (snd p)) w)).
    { clear. induction w as [|p w IH]; cbn [map Rsum]; [lra|]. unfold Rtr at 1. pose proof (Rmax_r (Rmax (rh (snd p) - rl (snd p)) (Rabs (rh (snd p) - rc (fst p)))) (Rabs (rl (snd p) - rc (fst p)))).
      pose proof (Rabs_pos (rl (snd p) - rc (fst p))). lra. }
    destruct (Req_EM_T (Rsum (map (fun p => Rtr (fst p) (snd p)) w)) 0) as [Q|Q].
    { cbn [shows] in S1, S2. rewrite S1, S2. exact Logic.I. }
    cbn [shows] in S1, S2. destruct S1 as (u & -> & N1), S2 as (v & -> & N2). cbn [orders].
    destruct GP as (p & EP & BP), GM as (m & EM & BM), GT as (t & ET & BT). pose proof (bpow_gt_0 radix2 e) as U.
    assert (TP : (0 < t)%Z). { apply lt_IZR. apply (Rmult_lt_reg_r (bpow radix2 e)); [exact U|]. rewrite Rmult_0_l, <- ET. lra. }
    assert (TR : IZR t <> 0) by (apply not_0_IZR; lia).
    assert (Q1 : Rsum (map (fun p => Rvp (fst p) (snd p)) w) / Rsum (map (fun p => Rtr (fst p) (snd p)) w) = IZR p / IZR t * bpow radix2 0) by (rewrite EP, ET; cbn [bpow]; field; lra).
    assert (Q2 : Rsum (map (fun p => Rvm (fst p) (snd p)) w) / Rsum (map (fun p => Rtr (fst p) (snd p)) w) = IZR m / IZR t * bpow radix2 0) by (rewrite EM, ET; cbn [bpow]; field; lra).
    rewrite Q1, Q2 in *. apply ratio_order; try assumption; nia.
  Qed.

  (** ** Two moving averages *)
  Lemma all_some_in {X} (l : list (option X)) w x : all_some l = Some w -> In x w -> In (Some x) l.
  Proof.
    revert w. induction l as [|[y|] l IH]; intros w E I; cbn [all_some] in E; [apply some_eq in E; subst w; destruct I| |discriminate].
    destruct (all_some l) as [v|]; [|discriminate]. apply some_eq in E. subst w. destruct I as [->|I]; [left; reflexivity|right; exact (IH v eq_refl I)].
  Qed.
  Lemma window_in {X} n (l : list (option X)) w x : window n l = Some w -> In x w -> In (Some x) l.
  Proof.
    unfold window. destruct (n <=? List.length l)%nat; [|discriminate]. intros E I. pose proof (all_some_in _ _ _ E I) as J. unfold lastn in J.
    rewrite <- (firstn_skipn (List.length l - n) l). apply in_or_app. right. exact J.
  Qed.
  Lemma window_ticks A n xs w : whole e A xs -> window n xs = Some w -> rt (Z.of_nat n * A) (Rsum (map B2R w)) /\ List.length w = n.
  Proof.
    intros W E. pose proof (window_length _ _ _ E) as LN. split; [|exact LN]. rewrite <- LN, <- (map_length (B2R (prec := 53) (emax := 1024))). apply rt_sum. rewrite Forall_map, Forall_forall.
    intros x I. apply tk_rt. apply W. exact (window_in _ _ _ _ E I).
  Qed.
  Lemma mean_vals n xs : mean_of n (vals xs) = option_map (fun w => Rsum (map B2R w) / INR n) (window n xs).
  Proof. unfold mean_of, vals. rewrite window_mapf. change (binary_float 53 1024) with f64. destruct (window n xs) as [w|]; reflexivity. Qed.
  Lemma means_order A n m xs (x y : f64) w w' : (1 <= n)%nat -> (1 <= m)%nat -> (0 <= A)%Z -> (4 * (A + 1) * Z.of_nat n * Z.of_nat m < 2 ^ 53)%Z -> whole e A xs ->
    window n xs = Some w -> window m xs = Some w' -> nearest_to x (Rsum (map B2R w) / INR n) -> nearest_to y (Rsum (map B2R w') / INR m) ->
    exists p q t, (0 < t <= 2 ^ 53)%Z /\ (8 * (Z.abs p + Z.abs q) <= 7 * 2 ^ 53)%Z /\ (4 * t <= 2 ^ 53)%Z /\
      Rsum (map B2R w) / INR n = IZR p / IZR t * bpow radix2 e /\ Rsum (map B2R w') / INR m = IZR q / IZR t * bpow radix2 e.
  Proof.
    intros Hn Hm A0 LB W EW EW' N1 N2. destruct (window_ticks _ _ _ _ W EW) as [(z & EZ & BZ) LN]. destruct (window_ticks _ _ _ _ W EW') as [(z' & EZ' & BZ') LN'].
    exists (z * Z.of_nat m)%Z, (z' * Z.of_nat n)%Z, (Z.of_nat n * Z.of_nat m)%Z.
    assert (P1 : (1 <= Z.of_nat n)%Z) by lia. assert (P2 : (1 <= Z.of_nat m)%Z) by lia. set (N := Z.of_nat n) in *. set (M := Z.of_nat m) in *.
    assert (NM : (1 <= N * M)%Z) by nia. assert (LB' : (4 * ((A + 1) * (N * M)) < 2 ^ 53)%Z) by (replace (4 * ((A + 1) * (N * M)))%Z with (4 * (A + 1) * N * M)%Z by ring; exact LB).
    assert (ANM : ((A + 1) * (N * M) = A * (N * M) + N * M)%Z) by ring. assert (ANP : (0 <= A * (N * M))%Z) by (apply Z.mul_nonneg_nonneg; lia).
    assert (B1 : (Z.abs (z * M) <= A * (N * M))%Z) by (rewrite Z.abs_mul, (Z.abs_eq M) by lia; replace (A * (N * M))%Z with (N * A * M)%Z by ring; apply Z.mul_le_mono_nonneg_r; lia).
    assert (B2 : (Z.abs (z' * N) <= A * (N * M))%Z) by (rewrite Z.abs_mul, (Z.abs_eq N) by lia; replace (A * (N * M))%Z with (M * A * N)%Z by ring; apply Z.mul_le_mono_nonneg_r; lia).
    assert (RN : INR n = IZR N) by apply INR_IZR_INZ. assert (RM : INR m = IZR M) by apply INR_IZR_INZ.
    assert (IZR N <> 0) by (apply not_0_IZR; lia). assert (IZR M <> 0) by (apply not_0_IZR; lia).
    split; [lia|]. split; [lia|]. split; [lia|]. rewrite EZ, EZ', RN, RM, !mult_IZR. split; field; auto.
  Qed.
  Lemma lens_fit A (n m : Z) : (0 <= A)%Z -> (1 <= n)%Z -> (1 <= m)%Z -> (4 * (A + 1) * n * m < 2 ^ 53)%Z -> (n <= 2 ^ 53 /\ (n + 1) * A < 2 ^ 53 /\ m <= 2 ^ 53 /\ (m + 1) * A < 2 ^ 53)%Z.
  Proof.
    intros A0 N M LB. assert (H : forall a b, (1 <= a)%Z -> (1 <= b)%Z -> (4 * (A + 1) * a * b < 2 ^ 53)%Z -> (a <= 2 ^ 53 /\ (a + 1) * A < 2 ^ 53)%Z).
    { intros a b Ha Hb L. assert (4 * (A + 1) * a * 1 <= 4 * (A + 1) * a * b)%Z by (apply Z.mul_le_mono_nonneg_l; [apply Z.mul_nonneg_nonneg; lia|exact Hb]). nia. }
    destruct (H n m N M LB). assert (LB' : (4 * (A + 1) * m * n < 2 ^ 53)%Z) by (replace (4 * (A + 1) * m * n)%Z with (4 * (A + 1) * n * m)%Z by ring; exact LB). destruct (H m n M N LB'). tauto.
  Qed.
  Theorem C115_cross A n m c xs : (1 <= n)%nat -> (1 <= m)%nat -> (0 <= A)%Z -> (4 * (A + 1) * Z.of_nat n * Z.of_nat m < 2 ^ 53)%Z -> whole e A xs ->
    exists os os' sigs, run_new (sma_new n) sma_step c xs = Ok os /\ run_new (sma_new m) sma_step c xs = Ok os' /\
      run cross_strategy_step c cross_new (combine os os') = Ok sigs /\
      line_signals (each_prefix (mean_of n) (vals xs)) (each_prefix (mean_of m) (vals xs)) sigs.
  Proof.
    intros Hn Hm A0 LB W. assert (P1 : (1 <= Z.of_nat n)%Z) by lia. assert (P2 : (1 <= Z.of_nat m)%Z) by lia.
    destruct (lens_fit A _ _ A0 P1 P2 LB) as (B1 & B2 & B3 & B4).
    destruct (C113_sma log10 e E0 A n c xs Hn B1 B2 A0 W) as (os & R1 & R2 & R3).
    destruct (C113_sma log10 e E0 A m c xs Hm B3 B4 A0 W) as (os' & R1' & R2' & R3'). exists os, os'.
    destruct (each_prefix_pair (mean_of n) (mean_of m) (vals xs)) as [EP1 EP2]. rewrite <- EP1, <- EP2.
    destruct (lines_default c (combine os os') (each_prefix (fun p => (mean_of n p, mean_of m p)) (vals xs))) as (sigs & RS & LS).
    2:{ exists sigs. split; [exact R1|]. split; [exact R1'|]. split; [exact RS|exact LS]. }
    apply forall2_from; [rewrite combine_length, R2, R2', Nat.min_id, length_each_prefix; unfold vals; rewrite map_length; reflexivity|]. intros i xy z Hx Hz. apply nth_each in Hz. destruct Hz as [Li ->].
    unfold vals in Li. rewrite map_length in Li.
    destruct (nth_error os i) as [x|] eqn:Ex. 2:{ apply nth_error_None in Ex. rewrite R2 in Ex. exact (False_ind _ (Nat.lt_irrefl _ (Nat.lt_le_trans _ _ _ Li Ex))). }
    destruct (nth_error os' i) as [y|] eqn:Ey. 2:{ apply nth_error_None in Ey. rewrite R2' in Ey. exact (False_ind _ (Nat.lt_irrefl _ (Nat.lt_le_trans _ _ _ Li Ey))). }
    rewrite (nth_error_combine _ _ i x y Ex Ey) in Hx. apply some_eq in Hx. subst xy.
    specialize (R3 i x Ex). specialize (R3' i y Ey). assert (V : firstn (S i) (vals xs) = vals (firstn (S i) xs)) by apply firstn_map. rewrite V, !mean_vals.
    assert (Wi : whole e A (firstn (S i) xs)) by (intros v I; apply W; exact (firstn_In _ _ _ I)).
    destruct (window n (firstn (S i) xs)) as [w|] eqn:EW; [|subst x; cbn [option_map orders]; destruct y, (window m (firstn (S i) xs)); exact Logic.I]. destruct R3 as (u & -> & N1).
    destruct (window m (firstn (S i) xs)) as [w'|] eqn:EW'; [|subst y; exact Logic.I]. destruct R3' as (v & -> & N2). cbn [option_map orders].
    destruct (means_order A n m _ u v w w' Hn Hm A0 LB Wi EW EW' N1 N2) as (p & q & t & T1 & PQ & _ & Q1 & Q2). rewrite Q1, Q2 in *. apply ratio_order; try assumption. lia.
  Qed.

  (** ** Williams %R *)
  Lemma eta_small : 1000 * eta64 * bpow radix2 53 <= / 1000 /\ 0 < eta64 /\ 0 < u64 <= / 1000000.
  Proof.
    unfold eta64, u64. split; [|split; [apply bpow_gt_0|split; [apply bpow_gt_0|]]].
    - rewrite Rmult_assoc, <- bpow_plus. apply Rle_trans with (1000 * bpow radix2 (-20)); [apply Rmult_le_compat_l; [lra|apply bpow_le; lia]|]. cbn [bpow]. cbv [Z.pow_pos Pos.iter radix2 radix_val]. cbn. lra.
    - apply Rle_trans with (bpow radix2 (-20)); [apply bpow_le; lia|]. cbn [bpow]. cbv [Z.pow_pos Pos.iter radix2 radix_val]. cbn. lra.
  Qed.
  Lemma twice_near (P T : Z) (r x : f64) : (0 < T <= 2 ^ 53)%Z -> (16 * Z.abs P < 2 ^ 53)%Z -> nearest_to r (IZR P / IZR T) -> nearest_to x (100 * B2R r) ->
    Rabs (B2R x - 100 * IZR P / IZR T) * IZR T < 20.
  Proof.
    intros HT HP N1 N2. apply near_err in N1, N2. destruct eta_small as (ES & E2 & U1 & U2).
    assert (TP : 1 <= IZR T) by (apply IZR_le; lia). assert (TM : IZR T <= bpow radix2 53) by (change (bpow radix2 53) with (IZR (2 ^ 53)); apply IZR_le; lia).
    assert (PB : 16 * Rabs (IZR P) <= bpow radix2 53) by (rewrite <- abs_IZR; change (bpow radix2 53) with (IZR (2 ^ 53)); rewrite <- mult_IZR; apply IZR_le; lia).
    assert (UB : u64 * bpow radix2 53 = 1) by (unfold u64; rewrite <- bpow_plus; reflexivity).
    assert (AV : Rabs (IZR P / IZR T) = Rabs (IZR P) / IZR T) by (unfold Rdiv; rewrite Rabs_mult, (Rabs_pos_eq (/ IZR T)) by (apply Rlt_le, Rinv_0_lt_compat; lra); reflexivity).
    rewrite AV in N1. set (q := Rabs (IZR P) / IZR T) in *. assert (Q0 : 0 <= q) by (apply Rmult_le_pos; [apply Rabs_pos|apply Rlt_le, Rinv_0_lt_compat; lra]).
    assert (QT : q * IZR T = Rabs (IZR P)) by (unfold q; field; lra).
    assert (AR : Rabs (100 * B2R r) <= 100 * (q + (u64 * q + eta64))).
    { rewrite Rabs_mult, (Rabs_pos_eq 100) by lra. apply Rmult_le_compat_l; [lra|]. replace (B2R r) with (IZR P / IZR T + (B2R r - IZR P / IZR T)) by ring.
      eapply Rle_trans; [apply Rabs_triang|]. rewrite AV. fold q. lra. }
    assert (TOT : Rabs (B2R x - 100 * IZR P / IZR T) <= 100 * (u64 * q + eta64) + (u64 * (100 * (q + (u64 * q + eta64))) + eta64)).
    { replace (B2R x - 100 * IZR P / IZR T) with ((B2R x - 100 * B2R r) + 100 * (B2R r - IZR P / IZR T)) by (field; lra).
      eapply Rle_trans; [apply Rabs_triang|]. rewrite Rabs_mult, (Rabs_pos_eq 100) by lra.
      assert (u64 * Rabs (100 * B2R r) <= u64 * (100 * (q + (u64 * q + eta64)))) by (apply Rmult_le_compat_l; lra). lra. }
    assert (UQ : 0 <= u64 * q) by (apply Rmult_le_pos; lra).
    assert (SQ : u64 * (u64 * q) <= u64 * q) by (rewrite <- (Rmult_1_l (u64 * q)) at 2; apply Rmult_le_compat_r; lra).
    assert (SE : u64 * eta64 <= eta64) by (rewrite <- (Rmult_1_l eta64) at 2; apply Rmult_le_compat_r; lra).
    assert (SM : u64 * (u64 * q) <= / 1000000 * (u64 * q)) by (apply Rmult_le_compat_r; lra).
    assert (TOT' : Rabs (B2R x - 100 * IZR P / IZR T) <= 201 * (u64 * q) + 300 * eta64) by lra.
    apply Rle_lt_trans with ((201 * (u64 * q) + 300 * eta64) * IZR T); [apply Rmult_le_compat_r; lra|].
    replace ((201 * (u64 * q) + 300 * eta64) * IZR T) with (201 * (u64 * (q * IZR T)) + 300 * eta64 * IZR T) by ring. rewrite QT.
    assert (H1 : u64 * Rabs (IZR P) <= / 16) by (apply (Rmult_le_reg_l 16); [lra|]; replace (16 * (u64 * Rabs (IZR P))) with (u64 * (16 * Rabs (IZR P))) by ring; replace (16 * / 16) with (u64 * bpow radix2 53) by (rewrite UB; field); apply Rmult_le_compat_l; lra).
    assert (H2 : 300 * eta64 * IZR T <= 300 * eta64 * bpow radix2 53) by (apply Rmult_le_compat_l; lra). lra.
  Qed.

  Lemma fifth j (r x : f64) : (j = 1 \/ j = 4)%Z -> nearest_to r (IZR (- j) / 5) -> nearest_to x (100 * B2R r) -> B2R x = IZR (-20 * j).
  Proof.
    intros J N1 N2. set (r0 := fdiv (fZ (- j) : f64) (fnat 5)).
    assert (T : ticks_of 0 10 (fZ (- j) : f64)).
    { destruct (fZ_real (- j) ltac:(lia)) as [F V]. split; [exact F|]. exists (- j)%Z. split; [rewrite V; cbn [bpow]; ring|lia]. }
    pose proof (tk_over log10 0 ltac:(lia) 10 (fZ (- j)) 5 T ltac:(lia) ltac:(lia) ltac:(lia)) as N0. change (N113 log10) with N115 in N0. fold r0 in N0.
    destruct (fZ_real (- j) ltac:(lia)) as [_ V]. rewrite V in N0. replace (INR 5) with 5 in N0 by (cbn; lra).
    pose proof (near_eq _ _ _ _ N1 N0 eq_refl) as ER.
    destruct (fZ_real 100 ltac:(lia)) as [F1 V1].
    assert (NX : nearest_to (fmul r0 (fZ 100)) (B2R r0 * B2R (fZ 100 : f64))).
    { apply (mul_nearest log10); [apply N0|exact F1|]. rewrite V1.
      assert (B : IZR (-1) <= B2R r0 <= IZR 0) by (apply (round_between (-1) 0 _ _ ltac:(lia) ltac:(lia)) with (2 := N0); split; apply (Rmult_le_reg_r 5); try lra; replace (IZR (- j) / 5 * 5) with (IZR (- j)) by field; rewrite opp_IZR; destruct J as [->| ->]; lra).
      apply Rle_trans with (bpow radix2 7); [|apply bpow_le; lia]. change (bpow radix2 7) with 128. rewrite Rabs_mult, (Rabs_pos_eq 100) by lra. assert (Rabs (B2R r0) <= 1) by (apply Rabs_le; lra). lra. }
    rewrite V1, Rmult_comm, <- ER in NX. rewrite (near_eq _ _ _ _ N2 NX eq_refl).
    destruct (fZ_real (-20 * j) ltac:(lia)) as [F2 V2]. rewrite <- V2.
    assert (G : Beqb (fmul r0 (fZ 100)) (fZ (-20 * j) : f64) = true) by (unfold r0; destruct J as [->| ->]; vm_compute; reflexivity).
    rewrite Beqb_correct in G by (assumption || apply NX). unfold Req_bool in G. destruct (Rcompare_spec (B2R (fmul r0 (fZ 100))) (B2R (fZ (-20 * j) : f64))); try discriminate. assumption.
  Qed.
  Lemma wpr_side (P T j : Z) (r x : f64) : (j = 1 \/ j = 4)%Z -> T <> 0%Z -> (Z.abs T <= 2 ^ 53)%Z -> (16 * Z.abs P < 2 ^ 53)%Z ->
    nearest_to r (IZR P / IZR T) -> nearest_to x (100 * B2R r) -> same_side (IZR (-20 * j)) x (100 * IZR P / IZR T).
  Proof.
    assert (POS : forall P T, (0 < T <= 2 ^ 53)%Z -> (16 * Z.abs P < 2 ^ 53)%Z -> (j = 1 \/ j = 4)%Z -> nearest_to r (IZR P / IZR T) -> nearest_to x (100 * B2R r) -> same_side (IZR (-20 * j)) x (100 * IZR P / IZR T)).
    { clear P T. intros P T HT HP J N1 N2. split; [apply N2|].
      assert (TP : 1 <= IZR T) by (apply IZR_le; lia).
      assert (D : 100 * IZR P / IZR T - IZR (-20 * j) = 20 * IZR (5 * P + j * T) / IZR T) by (rewrite !mult_IZR, plus_IZR, !mult_IZR; field; lra).
      pose proof (twice_near P T r x HT HP N1 N2) as ER. set (v := 100 * IZR P / IZR T) in *.
      assert (ER' : - (20 / IZR T) < B2R x - v < 20 / IZR T).
      { assert (Rabs (B2R x - v) < 20 / IZR T) by (apply (Rmult_lt_reg_r (IZR T)); [lra|]; replace (20 / IZR T * IZR T) with 20 by (field; lra); exact ER). apply Rabs_def2 in H. lra. }
      assert (TI : 0 < / IZR T) by (apply Rinv_0_lt_compat; lra).
      destruct (Z.lt_trichotomy (5 * P + j * T) 0) as [L|[L|L]].
      - assert (L' : IZR (5 * P + j * T) <= -1) by (apply IZR_le; lia).
        assert (20 * IZR (5 * P + j * T) / IZR T <= - (20 / IZR T)) by (unfold Rdiv; rewrite <- Ropp_mult_distr_l_reverse; apply Rmult_le_compat_r; lra). lra.
      - assert (EV : IZR P / IZR T = IZR (- j) / 5).
        { assert (IZR (5 * P) = IZR (- j * T)) by (f_equal; lia). rewrite !mult_IZR in H. apply (Rmult_eq_reg_r (5 * IZR T)); [|lra]. field_simplify; lra. }
        rewrite EV in N1. pose proof (fifth j r x J N1 N2) as EX. rewrite L in D. replace (20 * 0 / IZR T) with 0 in D by (field; lra). lra.
      - assert (L' : 1 <= IZR (5 * P + j * T)) by (apply IZR_le; lia).
        assert (20 / IZR T <= 20 * IZR (5 * P + j * T) / IZR T) by (unfold Rdiv; apply Rmult_le_compat_r; lra). lra. }
    intros J T0 HT HP N1 N2. destruct (Z.lt_trichotomy T 0) as [L|[L|L]]; [|contradiction|apply POS; try assumption; lia].
    assert (TZ : IZR T <> 0) by (apply not_0_IZR; exact T0).
    assert (Q1 : IZR P / IZR T = IZR (- P) / IZR (- T)) by (rewrite !opp_IZR; field; exact TZ).
    assert (Q2 : 100 * IZR P / IZR T = 100 * IZR (- P) / IZR (- T)) by (rewrite !opp_IZR; field; exact TZ).
    rewrite Q1 in N1. rewrite Q2. apply POS; try assumption; lia.
  Qed.
  Lemma pick {B} n (Q : nat -> B -> Prop) : (forall i, (i < n)%nat -> exists y, Q i y) -> exists ys, List.length ys = n /\ forall i y, nth_error ys i = Some y -> Q i y.
  Proof.
    revert Q. induction n as [|n IH]; intros Q H; [exists []; split; [reflexivity|]; intros [|i] y E; discriminate|].
    destruct (H 0%nat ltac:(lia)) as [y0 H0]. destruct (IH (fun i => Q (S i))) as (ys & L & G); [intros i Hi; apply H; lia|].
    exists (y0 :: ys). split; [cbn; lia|]. intros [|i] y E; [apply some_eq in E; subst y; exact H0|exact (G i y E)].
  Qed.
  Theorem C115_williams A len c src vs bs : (1 <= len)%nat -> (32 * A < 2 ^ 53)%Z -> List.length vs = List.length bs ->
    Forall (tk A) vs -> Forall (whole_bar e A) bs -> feeds c src (map Some vs) -> fresh_over c bs ->
    exists os es sigs, run_new (wpr_new src len) wpr_step c (ticks (List.length bs)) = Ok os /\ run thr_step c wpr_strategy_default os = Ok sigs /\
      List.length es = List.length bs /\
      (forall i v o, nth_error vs i = Some v -> nth_error es i = Some o -> wpr_is len (firstn (S i) (map real_bar bs)) (B2R v) o) /\
      real_signals (-20) (-80) es sigs.
  Proof.
    intros L LB LN WV W HF H. destruct (C113_williams log10 e E0 A len c src vs bs L ltac:(lia) LN WV W HF H) as (os & R1 & R2 & R3). exists os.
    destruct (pick (List.length bs) (fun i o => (forall v, nth_error vs i = Some v -> wpr_is len (firstn (S i) (map real_bar bs)) (B2R v) o) /\
                (forall x, nth_error os i = Some x -> sides (IZR (-20)) (IZR (-80)) x o))) as (es & LE & HE).
    2:{ destruct (thr_default (-20) (-80) c os es ltac:(lia) ltac:(lia)) as (sigs & R & RS).
        - apply forall2_from; [rewrite R2; symmetry; exact LE|]. intros i x y Hx Hy. exact (proj2 (HE i y Hy) x Hx).
        - exists es, sigs. split; [exact R1|]. split; [exact R|]. split; [exact LE|]. split; [|exact RS]. intros i v o Hv Ho. exact (proj1 (HE i o Ho) v Hv). }
    intros i Hi. destruct (nth_error bs i) as [b|] eqn:Hb; [|apply nth_error_None in Hb; lia].
    assert (Hv : exists v, nth_error vs i = Some v) by (destruct (nth_error vs i) as [v|] eqn:Hv; [eauto|apply nth_error_None in Hv; rewrite LN in Hv; lia]). destruct Hv as [v Hv].
    assert (Hx : exists x, nth_error os i = Some x) by (destruct (nth_error os i) as [x|] eqn:Hx; [eauto|apply nth_error_None in Hx; rewrite R2 in Hx; lia]). destruct Hx as [x Hx].
    specialize (R3 i v b x Hv Hb Hx). unfold wpr_is.
    assert (HB : Forall (fun r => rt A (rh r) /\ rt A (rl r)) (firstn (S i) (map real_bar bs))).
    { rewrite firstn_map, Forall_map, Forall_forall. intros b' I. rewrite Forall_forall in W. destruct (whole_rt A b' (W _ (firstn_In _ _ _ I))) as (_ & ? & ? & _). auto. }
    destruct (full_window len (firstn (S i) (map real_bar bs))) as [w|] eqn:EW.
    2:{ exists None. split; [reflexivity|]. intros x' Hx'. rewrite Hx in Hx'. apply some_eq in Hx'. subst x'. rewrite R3. exact Logic.I. }
    destruct (full_window_all _ _ _ _ HB EW) as [HW _].
    destruct R3 as (u & l & MU & ML & Q1 & Q2). exists (if Req_EM_T u l then None else Some (100 * (B2R v - u) / (u - l))). split.
    { intros v' Hv'. rewrite Hv in Hv'. apply some_eq in Hv'. subst v'. exists u, l. auto. }
    intros x' Hx'. rewrite Hx in Hx'. apply some_eq in Hx'. subst x'. destruct (Req_EM_T u l) as [Q|Q]; [rewrite (Q1 Q); exact Logic.I|].
    destruct (Q2 Q) as (r & y & -> & N1 & N2 & _).
    assert (TU : rt A u). { destruct MU as [I _]. apply in_map_iff in I. destruct I as (r' & <- & I). rewrite Forall_forall in HW. apply HW, I. }
    assert (TL : rt A l). { destruct ML as [I _]. apply in_map_iff in I. destruct I as (r' & <- & I). rewrite Forall_forall in HW. apply HW, I. }
    assert (TV : rt A (B2R v)) by (apply tk_rt; rewrite Forall_forall in WV; apply WV; exact (nth_error_In _ _ Hv)).
    destruct (rt_ratio _ _ _ _ (rt_sub _ _ _ _ TV TU) (rt_sub _ _ _ _ TU TL) ltac:(lra)) as (p & t & EQ & T0 & BP & BT).
    assert (EQ' : 100 * (B2R v - u) / (u - l) = 100 * IZR p / IZR t) by (unfold Rdiv in *; rewrite !Rmult_assoc, EQ; reflexivity).
    rewrite EQ', EQ in *. cbn [sides]. split; [apply (wpr_side p t 1 r y)|apply (wpr_side p t 4 r y)]; try assumption; try lia.
  Qed.

  (** ** Price oscillator *)
  Lemma bpow_near k : (-1074 <= k < 1024)%Z -> round radix2 (SpecFloat.fexp 53 1024) ZnearestE (bpow radix2 k) = bpow radix2 k.
  Proof.
    intros H. apply round_generic; [apply valid_rnd_N|]. apply generic_format_bpow. unfold SpecFloat.fexp, SpecFloat.emin. lia.
  Qed.
  Lemma near_ge k (x : f64) v : (-1074 <= k < 1024)%Z -> nearest_to x v -> bpow radix2 k <= v -> bpow radix2 k <= B2R x.
  Proof. intros K [_ ->] H. rewrite <- (bpow_near k K). exact (rnd_le _ _ H). Qed.
  Lemma near_le' k (x : f64) v : (-1074 <= k < 1024)%Z -> nearest_to x v -> v <= bpow radix2 k -> B2R x <= bpow radix2 k.
  Proof. intros K [_ ->] H. rewrite <- (bpow_near k K). exact (rnd_le _ _ H). Qed.
  Lemma near_opp_ge k (x : f64) v : (-1074 <= k < 1024)%Z -> nearest_to x v -> v <= - bpow radix2 k -> B2R x <= - bpow radix2 k.
  Proof.
    intros K [_ ->] H. rewrite <- (bpow_near k K) at 1. rewrite <- round_NE_opp. exact (rnd_le _ _ H).
  Qed.
  Lemma near_abs_le k (x : f64) v : (-1074 <= k < 1024)%Z -> nearest_to x v -> Rabs v <= bpow radix2 k -> Rabs (B2R x) <= bpow radix2 k.
  Proof.
    intros K N H. apply Rabs_le. assert (- bpow radix2 k <= v <= bpow radix2 k) by (unfold Rabs in H; destruct (Rcase_abs v); lra). split; [|apply (near_le' k x v K N); lra].
    destruct N as [_ ->]. rewrite <- (bpow_near k K) at 1. rewrite <- round_NE_opp. apply rnd_le. lra.
  Qed.
  Lemma sub_near (x y : f64) : is_finite x = true -> is_finite y = true -> Rabs (B2R x - B2R y) <= bpow radix2 1022 -> nearest_to (fsub x y) (B2R x - B2R y).
  Proof.
    intros Fx Fy B. pose proof (Bminus_correct 53 1024 _ _ mode_NE x y Fx Fy) as C.
    rewrite Rlt_bool_true in C by (apply rnd_fits; exact B). destruct C as (E & Fz & _). split; [exact Fz|exact E].
  Qed.
  Lemma div_near (x y : f64) : is_finite x = true -> is_finite y = true -> B2R y <> 0 -> Rabs (B2R x / B2R y) <= bpow radix2 1022 -> nearest_to (fdiv x y) (B2R x / B2R y).
  Proof.
    intros Fx Fy NZ B. pose proof (Bdiv_correct 53 1024 _ _ mode_NE x y NZ) as C.
    rewrite Rlt_bool_true in C by (apply rnd_fits; exact B). destruct C as (E & Fz & _). split; [change (fdiv x y) with (Bdiv mode_NE x y); rewrite Fz; exact Fx|exact E].
  Qed.
  Lemma pd_side p q t (x y : f64) : (0 < t <= 2 ^ 53)%Z -> (8 * (Z.abs p + Z.abs q) <= 7 * 2 ^ 53)%Z -> (4 * t <= 2 ^ 53)%Z -> (0 < p)%Z -> (0 < q)%Z ->
    let a := IZR p / IZR t * bpow radix2 e in let b := IZR q / IZR t * bpow radix2 e in
    nearest_to x a -> nearest_to y b -> same_side 0 (fmul (fdiv (fsub x y) y) (fZ 100)) (100 * (a - b) / b).
  Proof.
    intros T1 PQ T4 P0 Q0 a b X Y.
    assert (TP : 1 <= IZR t) by (apply IZR_le; lia). assert (TI : 0 < / IZR t) by (apply Rinv_0_lt_compat; lra). pose proof (bpow_gt_0 radix2 e) as U.
    assert (BIG : forall z, (0 < z)%Z -> (8 * Z.abs z <= 7 * 2 ^ 53)%Z -> bpow radix2 (e - 53) <= IZR z / IZR t * bpow radix2 e <= bpow radix2 (e + 53)).
    { intros z Z0 ZB. assert (1 <= IZR z) by (apply IZR_le; lia). assert (IZR z <= bpow radix2 53) by (change (bpow radix2 53) with (IZR (2 ^ 53)); apply IZR_le; lia).
      assert (TM : IZR t <= bpow radix2 53) by (change (bpow radix2 53) with (IZR (2 ^ 53)); apply IZR_le; lia). split.
      - unfold Zminus. rewrite bpow_plus, Rmult_comm. apply Rmult_le_compat_r; [lra|]. apply Rle_trans with (1 * / IZR t); [|apply Rmult_le_compat_r; lra].
        rewrite Rmult_1_l, bpow_opp. apply Rinv_le_contravar; [lra|exact TM].
      - rewrite Z.add_comm, bpow_plus. apply Rmult_le_compat_r; [lra|]. apply (Rmult_le_reg_r (IZR t)); [lra|]. unfold Rdiv. rewrite Rmult_assoc, Rinv_l, Rmult_1_r by lra.
        apply Rle_trans with (bpow radix2 53 * 1); [lra|]. apply Rmult_le_compat_l; [apply bpow_ge_0|exact TP]. }
    destruct (BIG p P0 ltac:(lia)) as [A1 A2]. destruct (BIG q Q0 ltac:(lia)) as [B1 B2]. fold a in A1, A2. fold b in B1, B2.
    pose proof (near_ge (e - 53) x a ltac:(lia) X A1) as X1. pose proof (near_le' (e + 53) x a ltac:(lia) X A2) as X2.
    pose proof (near_ge (e - 53) y b ltac:(lia) Y B1) as Y1. pose proof (near_le' (e + 53) y b ltac:(lia) Y B2) as Y2.
    pose proof (bpow_gt_0 radix2 (e - 53)) as LOW. assert (BP : 0 < b) by lra. assert (YP : 0 < B2R y) by lra.
    assert (DB : Rabs (B2R x - B2R y) <= bpow radix2 (e + 53)) by (apply Rabs_le; lra).
    assert (ND : nearest_to (fsub x y) (B2R x - B2R y)) by (apply sub_near; [apply X|apply Y|eapply Rle_trans; [exact DB|apply bpow_le; lia]]).
    set (d := fsub x y) in *. pose proof (near_abs_le (e + 53) d _ ltac:(lia) ND DB) as DB'.
    assert (YI : 0 < / B2R y) by (apply Rinv_0_lt_compat; exact YP).
    assert (YM : / B2R y <= bpow radix2 (53 - e)). { replace (53 - e)%Z with (- (e - 53))%Z by lia. rewrite bpow_opp. apply Rinv_le_contravar; assumption. }
    assert (YL : bpow radix2 (- (e + 53)) <= / B2R y). { rewrite bpow_opp. apply Rinv_le_contravar; assumption. }
    assert (RB : Rabs (B2R d / B2R y) <= bpow radix2 106).
    { unfold Rdiv. rewrite Rabs_mult, (Rabs_pos_eq (/ B2R y)) by lra. replace 106%Z with ((e + 53) + (53 - e))%Z by lia. rewrite bpow_plus. apply Rmult_le_compat; [apply Rabs_pos|lra|exact DB'|exact YM]. }
    assert (NR : nearest_to (fdiv d y) (B2R d / B2R y)) by (apply div_near; [apply ND|apply Y|lra|eapply Rle_trans; [exact RB|apply bpow_le; lia]]).
    set (r := fdiv d y) in *. pose proof (near_abs_le 106 r _ ltac:(lia) NR RB) as RB'.
    destruct (fZ_real 100 ltac:(lia)) as [F1 V1].
    assert (NM : nearest_to (fmul r (fZ 100)) (B2R r * 100)).
    { rewrite <- V1. apply (mul_nearest log10); [apply NR|exact F1|]. rewrite V1, Rabs_mult, (Rabs_pos_eq 100) by lra. apply Rle_trans with (bpow radix2 106 * bpow radix2 7); [|rewrite <- bpow_plus; apply bpow_le; lia].
      apply Rmult_le_compat; [apply Rabs_pos|lra|exact RB'|change (bpow radix2 7) with 128; lra]. }
    split; [apply NM|].
    assert (GAPB : bpow radix2 (e - 57) <= bpow radix2 e / (16 * IZR t)).
    { unfold Zminus. rewrite bpow_plus. apply Rmult_le_compat_l; [lra|]. rewrite bpow_opp. apply Rinv_le_contravar; [lra|].
      change (bpow radix2 57) with (IZR (16 * 2 ^ 53)). rewrite <- mult_IZR. apply IZR_le. lia. }
    assert (H100 : forall k v, 0 < bpow radix2 k <= v -> bpow radix2 k <= v * 100) by (intros k v Hv; lra).
    assert (QS : 100 * (a - b) / b = 100 * ((a - b) * / b)) by (unfold Rdiv; ring). assert (BI : 0 < / b) by (apply Rinv_0_lt_compat; exact BP).
    destruct (Z.lt_trichotomy p q) as [L|[L|L]].
    - pose proof (ratio_gap e p q t ltac:(lia) T1 PQ L) as G. cbv zeta in G. fold a b in G.
      assert (G' : B2R x - B2R y <= - bpow radix2 (e - 57)).
      { pose proof (near_err _ _ X) as EX. pose proof (near_err _ _ Y) as EY. pose proof (Rle_abs (B2R x - a)). pose proof (Rle_abs (- (B2R y - b))) as PY. rewrite Rabs_Ropp in PY. lra. }
      pose proof (near_opp_ge (e - 57) d _ ltac:(lia) ND G') as G2.
      assert (G3 : B2R d / B2R y <= - bpow radix2 (-110)).
      { unfold Rdiv. replace (-110)%Z with ((e - 57) + - (e + 53))%Z by lia. rewrite bpow_plus, Ropp_mult_distr_l. apply Rle_trans with (- bpow radix2 (e - 57) * / B2R y); [apply Rmult_le_compat_r; lra|].
        apply Rmult_le_compat_neg_l; [pose proof (bpow_gt_0 radix2 (e - 57)); lra|exact YL]. }
      pose proof (near_opp_ge (-110) r _ ltac:(lia) NR G3) as G4. pose proof (bpow_gt_0 radix2 (-110)) as K.
      pose proof (near_opp_ge (-110) _ _ ltac:(lia) NM ltac:(lra)) as G5.
      assert (AB : (a - b) * / b < 0). { pose proof (bpow_gt_0 radix2 (e - 57)). destruct eta_small as (_ & E2 & U1 & _). pose proof (Rabs_pos a). pose proof (Rabs_pos b). assert (0 <= u64 * (Rabs a + Rabs b)) by (apply Rmult_le_pos; lra).
        rewrite <- (Rmult_0_l (/ b)). apply Rmult_lt_compat_r; [exact BI|lra]. }
      rewrite QS. split; split; intros; lra.
    - assert (AB : a = b) by (unfold a, b; rewrite L; reflexivity). pose proof (near_eq _ _ _ _ X Y AB) as EQ.
      replace (B2R x - B2R y) with 0 in ND by lra. pose proof (nearest_0 _ ND) as D0. rewrite D0 in NR. replace (0 / B2R y) with 0 in NR by (field; lra).
      pose proof (nearest_0 _ NR) as R0. rewrite R0 in NM. replace (0 * 100) with 0 in NM by ring. rewrite (nearest_0 _ NM). rewrite QS, AB. replace (100 * ((b - b) * / b)) with 0 by ring. tauto.
    - pose proof (ratio_gap e q p t ltac:(lia) T1 ltac:(lia) L) as G. cbv zeta in G. fold a b in G.
      assert (G' : bpow radix2 (e - 57) <= B2R x - B2R y).
      { pose proof (near_err _ _ X) as EX. pose proof (near_err _ _ Y) as EY. pose proof (Rle_abs (- (B2R x - a))) as PX. rewrite Rabs_Ropp in PX. pose proof (Rle_abs (B2R y - b)). lra. }
      pose proof (near_ge (e - 57) d _ ltac:(lia) ND G') as G2.
      assert (G3 : bpow radix2 (-110) <= B2R d / B2R y).
      { unfold Rdiv. replace (-110)%Z with ((e - 57) + - (e + 53))%Z by lia. rewrite bpow_plus. pose proof (bpow_ge_0 radix2 (e - 57)). pose proof (bpow_ge_0 radix2 (- (e + 53))). apply Rmult_le_compat; assumption. }
      pose proof (near_ge (-110) r _ ltac:(lia) NR G3) as G4. pose proof (bpow_gt_0 radix2 (-110)) as K.
      pose proof (near_ge (-110) _ _ ltac:(lia) NM ltac:(lra)) as G5.
      assert (AB : 0 < (a - b) * / b). { pose proof (bpow_gt_0 radix2 (e - 57)). destruct eta_small as (_ & E2 & U1 & _). pose proof (Rabs_pos a). pose proof (Rabs_pos b). assert (0 <= u64 * (Rabs b + Rabs a)) by (apply Rmult_le_pos; lra).
        apply Rmult_lt_0_compat; [lra|exact BI]. }
      rewrite QS. split; split; intros; lra.
  Qed.

  Theorem C115_price_oscillator A n m a b c src vs : (1 <= n)%nat -> (1 <= m)%nat -> (0 <= A)%Z -> (4 * (A + 1) * Z.of_nat n * Z.of_nat m < 2 ^ 53)%Z ->
    Forall (fun v => tk A v /\ 0 < B2R v) vs -> feeds c src (map Some vs) -> ma_new SMA n = Ok a -> ma_new SMA m = Ok b ->
    exists os sigs, run po_step c (mkPo src a b) (ticks (List.length vs)) = Ok os /\ run thr_step c zero_strategy_default os = Ok sigs /\
      real_signals 0 0 (each_prefix (po_of n m) (map Some (map B2R vs))) sigs.
  Proof.
    intros Hn Hm A0 LB WV HF Ha Hb. assert (P1 : (1 <= Z.of_nat n)%Z) by lia. assert (P2 : (1 <= Z.of_nat m)%Z) by lia.
    assert (W : whole e A (map Some vs)). { intros x I. apply in_map_iff in I. destruct I as (v & E & I). apply some_eq in E. subst v. rewrite Forall_forall in WV. apply WV, I. }
    destruct (lens_fit A _ _ A0 P1 P2 LB) as (B1 & B2 & B3 & B4).
    destruct (C113_sma log10 e E0 A n c _ Hn B1 B2 A0 W) as (os & R1 & R2 & R3).
    destruct (C113_sma log10 e E0 A m c _ Hm B3 B4 A0 W) as (os' & R1' & R2' & R3').
    exists (zip percent_difference os os').
    assert (RUN : run po_step c (mkPo src a b) (ticks (List.length vs)) = Ok (zip percent_difference os os')).
    { rewrite C58_price. unfold feeds in HF. rewrite map_length in HF. rewrite HF. cbn [rbind]. rewrite (ma_boxed _ _ _ _ _ Ha), (ma_boxed _ _ _ _ _ Hb), !ma_run_sma.
      change (N113 log10) with N115 in R1, R1'. rewrite R1, R1'. reflexivity. }
    assert (VV : map Some (map B2R vs) = vals (map Some vs)) by (unfold vals; rewrite !map_map; reflexivity).
    assert (F2 : Forall2 (sides (IZR 0) (IZR 0)) (zip percent_difference os os') (each_prefix (po_of n m) (map Some (map B2R vs)))).
    { apply forall2_from; [unfold zip; rewrite map_length, combine_length, R2, R2', Nat.min_id, length_each_prefix, !map_length; reflexivity|].
      intros i z y Hz Hy. apply nth_each in Hy. destruct Hy as [Li ->]. rewrite !map_length in Li.
      destruct (nth_error os i) as [x|] eqn:Ex. 2:{ apply nth_error_None in Ex. rewrite R2, map_length in Ex. exact (False_ind _ (Nat.lt_irrefl _ (Nat.lt_le_trans _ _ _ Li Ex))). }
      destruct (nth_error os' i) as [x'|] eqn:Ex'. 2:{ apply nth_error_None in Ex'. rewrite R2', map_length in Ex'. exact (False_ind _ (Nat.lt_irrefl _ (Nat.lt_le_trans _ _ _ Li Ex'))). }
      unfold zip in Hz. rewrite nth_error_map, (nth_error_combine _ _ i x x' Ex Ex') in Hz. cbn [option_map fst snd] in Hz. apply some_eq in Hz. subst z.
      specialize (R3 i x Ex). specialize (R3' i x' Ex'). rewrite VV. assert (V : firstn (S i) (vals (map Some vs)) = vals (firstn (S i) (map Some vs))) by apply firstn_map. unfold po_of. rewrite V, !mean_vals.
      assert (Wi : whole e A (firstn (S i) (map Some vs))) by (intros v I; apply W; exact (firstn_In _ _ _ I)).
      assert (POS : forall k w, (1 <= k)%nat -> window k (firstn (S i) (map Some vs)) = Some w -> 0 < Rsum (map B2R w) / INR k).
      { intros k w Hk Ew. apply Rdiv_lt_0_compat; [|apply lt_0_INR; lia]. pose proof (window_length _ _ _ Ew) as LN.
        assert (HP : Forall (fun v => 0 < B2R v) w).
        { apply Forall_forall. intros v I. pose proof (window_in _ _ _ _ Ew I) as J. apply firstn_In in J. apply in_map_iff in J. destruct J as (v' & E & J). apply some_eq in E. subst v'. rewrite Forall_forall in WV. apply WV, J. }
        assert (HN : (0 < List.length w)%nat) by (rewrite LN; lia). clear -HP HN. destruct HP as [|v w Hv HP]; [cbn in HN; lia|]. clear HN. cbn [map Rsum].
        assert (0 <= Rsum (map B2R w)) by (induction HP as [|y w Hy HP IH]; cbn [map Rsum]; lra). lra. }
      destruct (window n (firstn (S i) (map Some vs))) as [w|] eqn:EW; [|subst x; cbn [option_map percent_difference]; exact Logic.I]. destruct R3 as (u & -> & N1).
      destruct (window m (firstn (S i) (map Some vs))) as [w'|] eqn:EW'; [|subst x'; cbn [option_map percent_difference]; exact Logic.I]. destruct R3' as (v & -> & N2). cbn [option_map percent_difference sides].
      destruct (means_order A n m _ u v w w' Hn Hm A0 LB Wi EW EW' N1 N2) as (p & q & t & T1 & PQ & T4 & Q1 & Q2).
      pose proof (POS n w Hn EW) as G1. pose proof (POS m w' Hm EW') as G2. rewrite Q1, Q2 in *.
      assert (SG : forall z, 0 < IZR z / IZR t * bpow radix2 e -> (0 < z)%Z).
      { intros z Z0. apply lt_IZR. apply Rnot_le_lt. intros C. assert (1 <= IZR t) by (apply IZR_le; lia). assert (0 < / IZR t) by (apply Rinv_0_lt_compat; lra).
        assert (IZR z / IZR t * bpow radix2 e <= 0); [|lra]. pose proof (bpow_gt_0 radix2 e). unfold Rdiv. rewrite Rmult_assoc. rewrite <- (Rmult_0_l (/ IZR t * bpow radix2 e)). apply Rmult_le_compat_r; [apply Rmult_le_pos; lra|exact C]. }
      pose proof (pd_side p q t u v T1 PQ T4 (SG p G1) (SG q G2) N1 N2) as SS. split; exact SS. }
    destruct (thr_default 0 0 c _ _ ltac:(lia) ltac:(lia) F2) as (sigs & R & RS). exists sigs. split; [exact RUN|]. split; [exact R|exact RS].
  Qed.

  (** ** Whole backtests *)
  (** Whatever indicator and signal component of the library: the f64 backtest of whole-tick bars is the exact backtest on the same signals. *)
  Lemma backtest_exact {S O T} A (new : res S) (step : ctx f64 -> S -> unit -> res (S * O)) s (g0 : T) (g : ctx f64 -> T -> O -> res (T * option direction)) cfg rfr c bs :
    indicator new step -> new = Ok s -> signaller g0 g -> fresh_over c bs -> Forall PropSafe.complete bs -> sc_with_equity cfg = false -> whole_ticks e A (List.length bs) cfg c ->
    exists vals sigs os os', run_new new step c (ticks (List.length bs)) = Ok vals /\ run g c g0 vals = Ok sigs /\
      run (pipe_step step (pipe_step g (metered tv_step))) c (s, (g0, (strategy_new cfg, tv_new (strategy_new cfg) rfr))) (ticks (List.length bs)) = Ok os /\
      observed tv_step (exact_config cfg) (tv_new (strategy_new (exact_config cfg)) (to_xr rfr)) (exact_ctx c) sigs os' /\
      Forall2 (fun o o' => fst o' = exact_strategy (fst o) /\ same_report (tv_data (snd o)) (tv_data (snd o'))) os os'.
  Proof.
    intros KI ES KG FO HC CE WT.
    destruct (C100_backtest new step s g0 g cfg (tv_new (strategy_new cfg) rfr) tv_step c bs KI ES KG (M_tradingview _ _ _ rfr) FO HC) as (vs & sigs & os & R1 & R2 & R3 & R4 & L1 & L2 & L3).
    rewrite <- L2 in WT. destruct (C112_tradingview log10 e A cfg rfr c sigs CE WT) as [H _]. destruct (H os R3) as (os' & R5 & R6).
    exists vs, sigs, os, os'. auto.
  Qed.

  Lemma closes_of A bs : Forall (whole_bar e A) bs -> exists vs, map b_close bs = map Some vs /\ Forall (tk A) vs /\ map B2R vs = map rc (map real_bar bs) /\ List.length vs = List.length bs.
  Proof.
    induction 1 as [|b bs (o & h & l & c & H1 & H2 & H3 & H4 & T1 & T2 & T3 & T4) _ (vs & E & F & G & L)]; [exists []; repeat split; constructor|].
    exists (c :: vs). cbn [map List.length]. rewrite H4, E, G, L. split; [reflexivity|]. split; [constructor; assumption|]. split; [|reflexivity]. unfold real_bar at 2. cbn [rc]. rewrite H4. reflexivity.
  Qed.
  Theorem C115_backtest_averages A n m cfg rfr c bs : (1 <= n)%nat -> (1 <= m)%nat -> (0 <= A)%Z -> (4 * (A + 1) * Z.of_nat n * Z.of_nat m < 2 ^ 53)%Z ->
    sc_with_equity cfg = false -> whole_ticks e A (List.length bs) cfg c -> fresh_over c bs -> Forall PropSafe.complete bs ->
    Forall (fun b => whole_bar e A b /\ 0 < rc (real_bar b)) bs ->
    exists a b sigs os os', ma_new SMA n = Ok a /\ ma_new SMA m = Ok b /\
      real_signals 0 0 (each_prefix (po_of n m) (map Some (map rc (map real_bar bs)))) sigs /\
      run (pipe_step po_step (pipe_step thr_step (metered tv_step))) c (mkPo (src_box SClose) a b, (zero_strategy_default, (strategy_new cfg, tv_new (strategy_new cfg) rfr))) (ticks (List.length bs)) = Ok os /\
      observed tv_step (exact_config cfg) (tv_new (strategy_new (exact_config cfg)) (to_xr rfr)) (exact_ctx c) sigs os' /\
      Forall2 (fun o o' => fst o' = exact_strategy (fst o) /\ same_report (tv_data (snd o)) (tv_data (snd o'))) os os'.
  Proof.
    intros Hn Hm A0 LB CE WT FO HC WP.
    assert (W : Forall (whole_bar e A) bs) by (eapply Forall_impl; [|exact WP]; intros b Hb; apply Hb).
    destruct (closes_of A bs W) as (vs & EC & FV & EV & LV).
    assert (GM : forall k, (1 <= k)%nat -> exists x, ma_new SMA k = Ok x). { intros k Hk. unfold ma_new, sma_new, assertb. rewrite (proj2 (Nat.leb_le 1 k) Hk). cbn [rbind]. unfold wv_new, assertb. rewrite ?(proj2 (Nat.leb_le 1 k) Hk). eexists; reflexivity. }
    destruct (GM n Hn) as [a Ha]. destruct (GM m Hm) as [b Hb].
    assert (HF : feeds c (src_box SClose) (map Some vs)) by (unfold feeds; rewrite map_length, LV, (PropContent4.closes c bs FO), EC; reflexivity).
    assert (FP : Forall (fun v => tk A v /\ 0 < B2R v) vs).
    { rewrite Forall_forall in FV |- *. intros v I. split; [apply FV, I|]. assert (J : In (B2R v) (map rc (map real_bar bs))) by (rewrite <- EV; apply in_map, I). rewrite map_map in J. apply in_map_iff in J. destruct J as (b' & <- & J). rewrite Forall_forall in WP. apply WP, J. }
    destruct (C115_price_oscillator A n m a b c _ vs Hn Hm A0 LB FP HF Ha Hb) as (ps & sigs & R1 & R2 & R3).
    assert (NEW : (s <- ma_new SMA n ;; l <- ma_new SMA m ;; Ok (mkPo (src_box SClose) s l)) = Ok (mkPo (src_box SClose) a b)) by (rewrite Ha; cbn [rbind]; rewrite Hb; reflexivity).
    destruct (backtest_exact A _ po_step _ zero_strategy_default thr_step cfg rfr c bs (I_po SClose SMA n SMA m) NEW (G_threshold _ _) FO HC CE WT) as (ps' & sigs' & os & os' & B1 & B2 & B3 & B4 & B5).
    rewrite LV in R1. rewrite NEW in B1. unfold run_new in B1. cbn [rbind] in B1. rewrite R1 in B1. assert (ps' = ps) by congruence. subst ps'. rewrite R2 in B2. assert (sigs' = sigs) by congruence. subst sigs'.
    exists a, b, sigs, os, os'. rewrite EV in R3. auto 10.
  Qed.
  Theorem C115_backtest_cmo A len cfg rfr c bs : (2 <= len)%nat -> (1 <= A)%Z -> (400 * Z.of_nat len * A < 2 ^ 53)%Z ->
    sc_with_equity cfg = false -> whole_ticks e A (List.length bs) cfg c -> fresh_over c bs -> Forall PropSafe.complete bs -> Forall (whole_bar e A) bs ->
    exists s sigs os os', cmo_new (src_box SClose) len = Ok s /\
      real_signals (-50) 50 (each_prefix (cmo_of len) (map rc (map real_bar bs))) sigs /\
      run (pipe_step cmo_step (pipe_step thr_step (metered tv_step))) c (s, (cmo_strategy_default, (strategy_new cfg, tv_new (strategy_new cfg) rfr))) (ticks (List.length bs)) = Ok os /\
      observed tv_step (exact_config cfg) (tv_new (strategy_new (exact_config cfg)) (to_xr rfr)) (exact_ctx c) sigs os' /\
      Forall2 (fun o o' => fst o' = exact_strategy (fst o) /\ same_report (tv_data (snd o)) (tv_data (snd o'))) os os'.
  Proof.
    intros L A1 LB CE WT FO HC W. destruct (closes_of A bs W) as (vs & EC & FV & EV & LV).
    assert (HF : feeds c (src_box SClose) (map Some vs)) by (unfold feeds; rewrite map_length, LV, (PropContent4.closes c bs FO), EC; reflexivity).
    destruct (C115_cmo A len c _ vs L LB A1 FV HF) as (ps & sigs & R1 & R2 & R3).
    assert (NEW : exists s, cmo_new (src_box SClose) len = Ok s) by (destruct (cmo_new (src_box SClose) len) as [s|]; [eexists; reflexivity|discriminate]). destruct NEW as [s NEW].
    destruct (backtest_exact A _ cmo_step _ cmo_strategy_default thr_step cfg rfr c bs (I_cmo SClose len) NEW (G_threshold _ _) FO HC CE WT) as (ps' & sigs' & os & os' & B1 & B2 & B3 & B4 & B5).
    rewrite LV in R1. rewrite R1 in B1. assert (ps' = ps) by congruence. subst ps'. rewrite R2 in B2. assert (sigs' = sigs) by congruence. subst sigs'.
    exists s, sigs, os, os'. rewrite EV in R3. auto 10.
  Qed.
End Signal.

(** The hypotheses hold for six bars at whole prices, in ticks of 1 and of 1/256. *)
Example C115_holds : Forall (fun b => whole_bar (-8) 256000 b /\ 0 < rc (real_bar b)) bars6 /\ whole_ticks (-8) 256000 6 cfg112 ctx6 /\ fresh_over ctx6 bars6 /\ Forall PropSafe.complete bars6 /\
  (4 * (256000 + 1) * 10 * 21 < 2 ^ 53)%Z /\ (400 * 14 * 256000 < 2 ^ 53)%Z /\ (8 * (14 + 1) * 256000 < 2 ^ 53)%Z.
Proof.
  split; [|split; [apply ctx6_ticks; cbn; lia|split; [apply ctx6_fresh|split; [exact (proj1 C69_ex)|lia]]]].
  pose proof (bars6_whole (-8) 256000 ltac:(lia) ltac:(cbn; lia)) as W. rewrite Forall_forall in W |- *. intros b I. split; [exact (W b I)|].
  unfold bars6 in I. cbn [map In] in I.
  assert (G : forall o h l c v : Z, (0 < c <= 1000)%Z -> 0 < rc (real_bar (qbar (o, h, l, c, v)))).
  { intros o h l c v H. unfold real_bar, qbar. cbn [rc b_close value_of]. destruct (f64_ofZ_correct c ltac:(lia)) as [V _]. change (B2R (q c)) with (B2R (f64_ofZ c)). rewrite V. apply IZR_lt. lia. }
  repeat (destruct I as [<-|I]; [apply G; lia|]). destruct I.
Qed.
(** Signals over them: the averages of 1 and 2 closes, and the oscillator over 2 changes. *)
Example C115_ex : exists a b, ma_new SMA 1 = Ok a /\ ma_new SMA 2 = Ok b /\
  (ps <- run po_step ctx6 (mkPo (src_box SClose) a b) (ticks 6) ;; run thr_step ctx6 zero_strategy_default ps) = Ok [None; None; Some Short; None; Some Long; None] /\
  (ps <- run_new (cmo_new (src_box SClose) 2) cmo_step ctx6 (ticks 6) ;; run thr_step ctx6 cmo_strategy_default ps) = Ok [None; None; None; None; None; Some Long].
Proof. do 2 eexists. split; [reflexivity|]. split; [reflexivity|]. vm_compute. split; reflexivity. Qed.
(** Whole ticks matter: prices of 0.7, 0.2 and 0.2.  At the third bar the averages of 1 and of
    2 prices are both 0.2, so the short one does not get above the long one; in f64 it does,
    and the library signals Long. *)
Definition dec115 : list (option f64) := [Some (lit 7 10); Some (lit 1 5); Some (lit 1 5)].
Lemma facts115 (r1 r2 : res (list (option f64))) l : (a <- r1 ;; b <- r2 ;; run cross_strategy_step ctx_bare cross_new (combine a b)) = Ok l ->
  exists os os', r1 = Ok os /\ r2 = Ok os' /\ run cross_strategy_step ctx_bare cross_new (combine os os') = Ok l.
Proof. destruct r1 as [a|], r2 as [b|]; cbn [rbind]; intros H; try discriminate. exists a, b. auto. Qed.
Example C115_decimal : exists os os' sigs, run_new (sma_new 1) sma_step ctx_bare dec115 = Ok os /\ run_new (sma_new 2) sma_step ctx_bare dec115 = Ok os' /\
  run cross_strategy_step ctx_bare cross_new (combine os os') = Ok sigs /\ nth_error sigs 2 = Some (Some Long) /\
  ~ line_signals (each_prefix (mean_of 1) (vals dec115)) (each_prefix (mean_of 2) (vals dec115)) sigs.
Proof.
  destruct (facts115 (run_new (sma_new 1) sma_step ctx_bare dec115) (run_new (sma_new 2) sma_step ctx_bare dec115) [None; None; Some Long]) as (os & os' & R1 & R2 & R3); [vm_compute; reflexivity|].
  exists os, os', [None; None; Some Long]. split; [exact R1|]. split; [exact R2|]. split; [exact R3|]. split; [reflexivity|].
  intros [_ H]. destruct (H 2%nat (Some Long) eq_refl) as [[H' _] _]. destruct (H' eq_refl) as (j & x & y & x' & y' & EJ & Hx & Hy & _ & _ & LT & _). clear R1 R2 R3 H H' EJ.
  rewrite nth_error_each_prefix in Hx, Hy by (cbn; lia). unfold vals, dec115 in Hx, Hy. cbn [map firstn option_map] in Hx, Hy. revert Hx Hy. generalize (B2R (lit 1 5)) (B2R (lit 7 10)). intros t r Hx Hy.
  unfold mean_of, window, lastn in Hx, Hy. cbn in Hx, Hy. apply some_eq, some_eq in Hx. apply some_eq, some_eq in Hy. subst x y. lra.
Qed.
