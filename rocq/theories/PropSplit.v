(** * PropSplit: C125 (prices multiplied by a power of two, bit for bit in f64). *)
From Coq Require Import Reals Lra Lia Psatz.
From Flocq Require Import Core IEEE754.BinarySingleNaN Mult_error.
From Verif Require Import PropWhole.
From Verif Require Import PropContent2.
From Verif Require Import PContent1 PContent2 PContent3 PExact3.
From Verif Require Import PropBacktest PStrategy.
From Verif Require PMono.
From Verif Require Import Inst PropTick PIeee2 PRound PropDrift PropRatio.
Local Open Scope R_scope.

(** ** Multiplying an f64 by [2^k] *)
Definition times2 (k : Z) (x : f64) : f64 := Bldexp mode_NE x k.
Notation fexp64 := (SpecFloat.fexp 53 1024).
Notation rn := (round radix2 fexp64 (round_mode mode_NE)).

Lemma fix_format r : (exists z : Z, r = IZR z * bpow radix2 (-1074)) -> Rabs r <= bpow radix2 (-1021) -> generic_format radix2 fexp64 r.
Proof.
  intros [z ->] B. change fexp64 with (FLT_exp (-1074) 53). apply generic_format_FLT_FIX; [reflexivity|exact B|].
  apply generic_format_FIX. exists (Float radix2 z (-1074)); reflexivity.
Qed.
Lemma f64_whole (x : f64) : exists z : Z, B2R x = IZR z * bpow radix2 (-1074).
Proof.
  pose proof (generic_format_B2R 53 1024 x) as G. change fexp64 with (FLT_exp (-1074) 53) in G. apply (generic_format_FIX_FLT radix2 (-1074) 53) in G.
  apply FIX_format_generic in G. destruct G as [[z ex] E Ex]. cbn in Ex. subst ex. exists z. exact E.
Qed.
(** Rounding commutes with a multiplication by [2^k]: for values that are
    neither subnormal nor overflowing, and for subnormal ones that are exact. *)
Lemma rn_scale k r : (0 <= k)%Z -> (bpow radix2 (-1022) <= Rabs r \/ exists z : Z, r = IZR z * bpow radix2 (-1074)) -> rn (r * bpow radix2 k) = rn r * bpow radix2 k.
Proof.
  intros K H. destruct (Rle_dec (bpow radix2 (-1022)) (Rabs r)) as [N|N].
  - assert (R0 : r <> 0) by (intros ->; rewrite Rabs_R0 in N; pose proof (bpow_gt_0 radix2 (-1022)); lra).
    assert (M : (-1021 <= mag radix2 r)%Z) by (apply mag_ge_bpow; exact N).
    unfold round, scaled_mantissa, cexp. rewrite mag_mult_bpow by exact R0.
    assert (E : forall e, (-1021 <= e)%Z -> fexp64 e = (e - 53)%Z) by (intros e L; unfold SpecFloat.fexp, SpecFloat.emin; lia).
    rewrite !E by lia. unfold F2R. cbn [Fnum Fexp].
    replace (r * bpow radix2 k * bpow radix2 (- (mag radix2 r + k - 53))) with (r * bpow radix2 (- (mag radix2 r - 53))) by (rewrite Rmult_assoc, <- bpow_plus; do 2 f_equal; lia).
    rewrite Rmult_assoc, <- bpow_plus. do 2 f_equal. lia.
  - destruct H as [H|H]; [contradiction|]. assert (G : generic_format radix2 fexp64 r).
    { apply fix_format; [exact H|]. apply Rle_trans with (bpow radix2 (-1022)); [lra|apply bpow_le; lia]. }
    rewrite (round_generic radix2 fexp64 _ r G). apply round_generic; [apply valid_rnd_round_mode|].
    change fexp64 with (FLT_exp (-1074) 53). apply mult_bpow_pos_exact_FLT; [exact G|exact K].
Qed.


(** A price of ordinary size before and after the multiplication: zero, or at
    least [2^-448] and at most [2^900 / 2^k]. *)
Definition usable (k : Z) (x : f64) : Prop :=
  is_finite x = true /\ (B2R x = 0 \/ bpow radix2 (-448) <= Rabs (B2R x)) /\ Rabs (B2R x) * bpow radix2 k <= bpow radix2 900.
(** A whole multiple of [2^-500]. *)
Definition grid (r : R) : Prop := exists z : Z, r = IZR z * bpow radix2 (-500).
(** Internal amounts: [x * 2^k] is on the grid and at most [j * 2^900]. *)
Definition room (k : Z) (j : nat) (x : f64) : Prop := is_finite x = true /\ grid (B2R x) /\ Rabs (B2R x) * bpow radix2 k <= INR j * bpow radix2 900.
Definition few (j : nat) : Prop := (Z.of_nat j <= 2 ^ 53)%Z.
Lemma few_le i j : (i <= j)%nat -> few j -> few i. Proof. unfold few. lia. Qed.
Lemma few_top j : few j -> INR j * bpow radix2 900 < bpow radix2 1024.
Proof.
  intros H. apply Rle_lt_trans with (bpow radix2 53 * bpow radix2 900); [|rewrite <- bpow_plus; apply bpow_lt; lia].
  apply Rmult_le_compat_r; [apply bpow_ge_0|]. rewrite INR_IZR_INZ. change (bpow radix2 53) with (IZR (2 ^ 53)). apply IZR_le, H.
Qed.
Lemma grid_fix r : grid r <-> generic_format radix2 (FIX_exp (-500)) r.
Proof.
  split.
  - intros [z ->]. apply generic_format_FIX. exists (Float radix2 z (-500)); reflexivity.
  - intros H. apply FIX_format_generic in H. destruct H as [[z ex] E Ex]. cbn in Ex. subst ex. exists z. exact E.
Qed.
Lemma grid_round r : grid r -> grid (rn r).
Proof. rewrite !grid_fix. intros H. change fexp64 with (FLT_exp (-1074) 53). apply generic_round_generic; auto with typeclass_instances. Qed.
Lemma grid_add a b : grid a -> grid b -> grid (a + b).
Proof. intros [x ->] [y ->]. exists (x + y)%Z. rewrite plus_IZR. ring. Qed.
Lemma grid_opp a : grid a -> grid (- a).
Proof. intros [x ->]. exists (- x)%Z. rewrite opp_IZR. ring. Qed.
Lemma grid_mulz a z : grid a -> grid (a * IZR z).
Proof. intros [x ->]. exists (x * z)%Z. rewrite mult_IZR. ring. Qed.
Lemma grid_0 : grid 0. Proof. exists 0%Z. ring. Qed.
(** Enough for [rn_scale]. *)
Definition sound (r : R) : Prop := bpow radix2 (-1022) <= Rabs r \/ r = 0.
Lemma grid_min r : grid r -> r = 0 \/ bpow radix2 (-500) <= Rabs r.
Proof.
  intros [z ->]. destruct (Z.eq_dec z 0) as [->|N]; [left; ring|right]. rewrite Rabs_mult, <- abs_IZR, (Rabs_pos_eq (bpow radix2 (-500))) by apply bpow_ge_0.
  assert (1 <= IZR (Z.abs z)) by (apply IZR_le; lia). pose proof (bpow_gt_0 radix2 (-500)). nra.
Qed.
Lemma grid_sound r : grid r -> sound r.
Proof. intros H. destruct (grid_min r H) as [E|E]; [right; exact E|left]. eapply Rle_trans; [|exact E]. apply bpow_le. lia. Qed.
Lemma rn_sound k r : (0 <= k)%Z -> sound r -> rn (r * bpow radix2 k) = rn r * bpow radix2 k.
Proof. intros K [H|H]; apply rn_scale; auto. right. exists 0%Z. rewrite H. ring. Qed.
Lemma room_le k i j x : (i <= j)%nat -> room k i x -> room k j x.
Proof. intros L (F & G & B). split; [exact F|]. split; [exact G|]. eapply Rle_trans; [exact B|]. apply Rmult_le_compat_r; [apply bpow_ge_0|apply le_INR, L]. Qed.
Lemma usable_room k x : usable k x -> room k 1 x.
Proof.
  intros (F & Z & B). split; [exact F|]. split; [|cbn [INR]; lra]. destruct Z as [->|L]; [exact grid_0|].
  apply grid_fix. pose proof (generic_format_B2R 53 1024 x) as G.
  assert (N : B2R x <> 0) by (intros E; rewrite E, Rabs_R0 in L; pose proof (bpow_gt_0 radix2 (-448)); lra).
  assert (M : (-447 <= mag radix2 (B2R x))%Z) by (apply mag_ge_bpow; exact L).
  apply generic_inclusion_mag with (fexp1 := fexp64); [|exact G]. intros _. unfold FIX_exp, SpecFloat.fexp, SpecFloat.emin. lia.
Qed.
Lemma one_le_bpow k : (0 <= k)%Z -> 1 <= bpow radix2 k.
Proof. intros K. change 1 with (bpow radix2 0). apply bpow_le, K. Qed.
Lemma times2_correct k j x : (0 <= k)%Z -> few j -> room k j x ->
  is_finite (times2 k x) = true /\ B2R (times2 k x) = B2R x * bpow radix2 k /\ Bsign (times2 k x) = Bsign x.
Proof.
  intros K J (F & _ & B). pose proof (Bldexp_correct 53 1024 _ _ mode_NE x k) as C.
  assert (G : rn (B2R x * bpow radix2 k) = B2R x * bpow radix2 k).
  { apply round_generic; [apply valid_rnd_round_mode|]. change fexp64 with (FLT_exp (-1074) 53). apply mult_bpow_pos_exact_FLT; [apply (generic_format_B2R 53 1024)|exact K]. }
  rewrite G in C. rewrite Rlt_bool_true in C.
  - destruct C as (C1 & C2 & C3). exact (conj (eq_trans C2 F) (conj C1 C3)).
  - rewrite Rabs_mult, (Rabs_pos_eq (bpow radix2 k)) by apply bpow_ge_0. eapply Rle_lt_trans; [exact B|]. apply few_top, J.
Qed.
Lemma times2_same (x y : f64) : is_finite x = true -> is_finite y = true -> B2R x = B2R y -> Bsign x = Bsign y -> x = y.
Proof. apply B2R_Bsign_inj. Qed.
Lemma Rcompare_scale k r : Rcompare (r * bpow radix2 k) 0 = Rcompare r 0.
Proof. replace 0 with (0 * bpow radix2 k) at 1 by ring. apply Rcompare_mult_r, bpow_gt_0. Qed.

(** Results of one operation. *)
Lemma rounded_room k j r : (0 <= k)%Z -> few j -> sound r -> Rabs r * bpow radix2 k <= INR j * bpow radix2 900 ->
  Rabs (rn r) * bpow radix2 k <= INR j * bpow radix2 900 /\ Rabs (rn r) < bpow radix2 1024 /\ Rabs (rn (r * bpow radix2 k)) < bpow radix2 1024.
Proof.
  intros K J H B. pose proof (rn_sound k r K H) as E. pose proof (one_le_bpow k K) as K1. pose proof (few_top j J) as T.
  assert (X : Rabs (rn (r * bpow radix2 k)) <= INR j * bpow radix2 900).
  { apply (rounded_bound j 900); [exact J|lia|]. rewrite Rabs_mult, (Rabs_pos_eq (bpow radix2 k)) by apply bpow_ge_0. exact B. }
  assert (Y : Rabs (rn r) * bpow radix2 k <= INR j * bpow radix2 900) by (rewrite E, Rabs_mult, (Rabs_pos_eq (bpow radix2 k)) in X by apply bpow_ge_0; exact X).
  split; [exact Y|]. split; [|lra]. pose proof (Rabs_pos (rn r)). nra.
Qed.

(** [y] is [x] multiplied by [2^k]. *)
Definition sc (k : Z) (j : nat) (x y : f64) : Prop := room k j x /\ y = times2 k x.
Lemma sc_facts k j x y : (0 <= k)%Z -> few j -> sc k j x y ->
  (is_finite x = true /\ is_finite y = true) /\ B2R y = B2R x * bpow radix2 k /\ Bsign y = Bsign x /\ grid (B2R x) /\ Rabs (B2R x) * bpow radix2 k <= INR j * bpow radix2 900.
Proof. intros K J [H ->]. destruct (times2_correct k j x K J H) as (A & B & C). destruct H as (D & E & G). auto 10. Qed.
Lemma sc_make k j (x y : f64) : (0 <= k)%Z -> few j -> is_finite x = true -> is_finite y = true -> grid (B2R x) -> Rabs (B2R x) * bpow radix2 k <= INR j * bpow radix2 900 ->
  B2R y = B2R x * bpow radix2 k -> Bsign y = Bsign x -> sc k j x y.
Proof.
  intros K J Fx Fy G B V S. assert (H : room k j x) by (exact (conj Fx (conj G B))). split; [exact H|].
  destruct (times2_correct k j x K J H) as (P & Q & T). apply times2_same; [exact Fy|exact P|rewrite V, Q; reflexivity|rewrite S, T; reflexivity].
Qed.
Lemma sc_le k i j x y : (i <= j)%nat -> sc k i x y -> sc k j x y.
Proof. intros L [H E]. split; [exact (room_le _ _ _ _ L H)|exact E]. Qed.
Lemma scale_bound k i j a b : Rabs a * bpow radix2 k <= INR i * bpow radix2 900 -> Rabs b * bpow radix2 k <= INR j * bpow radix2 900 ->
  Rabs (a + b) * bpow radix2 k <= INR (i + j) * bpow radix2 900.
Proof. intros A B. rewrite plus_INR. pose proof (Rabs_triang a b). pose proof (bpow_gt_0 radix2 k). nra. Qed.
Lemma sc_add k i j x y x' y' : (0 <= k)%Z -> few (i + j) -> sc k i x x' -> sc k j y y' -> sc k (i + j) (Bplus mode_NE x y) (Bplus mode_NE x' y').
Proof.
  intros K J Hx Hy. assert (Ji : few i) by (apply few_le with (2 := J); lia). assert (Jj : few j) by (apply few_le with (2 := J); lia).
  destruct (sc_facts _ _ _ _ K Ji Hx) as ([Fx Fx'] & Vx & Sx & Gx & Bx). destruct (sc_facts _ _ _ _ K Jj Hy) as ([Fy Fy'] & Vy & Sy & Gy & By).
  pose proof (grid_add _ _ Gx Gy) as G. pose proof (scale_bound _ _ _ _ _ Bx By) as B.
  destruct (rounded_room k (i + j) _ K J (grid_sound _ G) B) as (R1 & R2 & R3).
  pose proof (Bplus_correct 53 1024 _ _ mode_NE x y Fx Fy) as C. rewrite Rlt_bool_true in C by exact R2. destruct C as (C1 & C2 & C3).
  pose proof (Bplus_correct 53 1024 _ _ mode_NE _ _ Fx' Fy') as D. rewrite Vx, Vy, <- Rmult_plus_distr_r, Rcompare_scale, Sx, Sy in D.
  rewrite Rlt_bool_true in D by exact R3. destruct D as (D1 & D2 & D3).
  apply sc_make; [exact K|exact J|exact C2|exact D2|rewrite C1; exact (grid_round _ G)|rewrite C1; exact R1|rewrite C1, D1; apply rn_sound; [exact K|apply grid_sound, G]|exact (eq_trans D3 (eq_sym C3))].
Qed.
Lemma sc_sub k i j x y x' y' : (0 <= k)%Z -> few (i + j) -> sc k i x x' -> sc k j y y' -> sc k (i + j) (Bminus mode_NE x y) (Bminus mode_NE x' y').
Proof.
  intros K J Hx Hy. assert (Ji : few i) by (apply few_le with (2 := J); lia). assert (Jj : few j) by (apply few_le with (2 := J); lia).
  destruct (sc_facts _ _ _ _ K Ji Hx) as ([Fx Fx'] & Vx & Sx & Gx & Bx). destruct (sc_facts _ _ _ _ K Jj Hy) as ([Fy Fy'] & Vy & Sy & Gy & By).
  pose proof (grid_add _ _ Gx (grid_opp _ Gy)) as G. assert (B : Rabs (B2R x + - B2R y) * bpow radix2 k <= INR (i + j) * bpow radix2 900) by (apply scale_bound; [exact Bx|rewrite Rabs_Ropp; exact By]).
  change (B2R x + - B2R y) with (B2R x - B2R y) in *.
  destruct (rounded_room k (i + j) _ K J (grid_sound _ G) B) as (R1 & R2 & R3).
  pose proof (Bminus_correct 53 1024 _ _ mode_NE x y Fx Fy) as C. rewrite Rlt_bool_true in C by exact R2. destruct C as (C1 & C2 & C3).
  pose proof (Bminus_correct 53 1024 _ _ mode_NE _ _ Fx' Fy') as D. rewrite Vx, Vy, <- Rmult_minus_distr_r, Rcompare_scale, Sx, Sy in D.
  rewrite Rlt_bool_true in D by exact R3. destruct D as (D1 & D2 & D3).
  apply sc_make; [exact K|exact J|exact C2|exact D2|rewrite C1; exact (grid_round _ G)|rewrite C1; exact R1|rewrite C1, D1; apply rn_sound; [exact K|apply grid_sound, G]|exact (eq_trans D3 (eq_sym C3))].
Qed.
Lemma sc_neg k j x x' : (0 <= k)%Z -> few j -> sc k j x x' -> sc k j (Bopp x) (Bopp x').
Proof.
  intros K J H. destruct (sc_facts _ _ _ _ K J H) as ([Fx Fx'] & Vx & Sx & Gx & Bx).
  apply sc_make; [exact K|exact J|rewrite is_finite_Bopp; exact Fx|rewrite is_finite_Bopp; exact Fx'|rewrite B2R_Bopp; exact (grid_opp _ Gx)|rewrite B2R_Bopp, Rabs_Ropp; exact Bx|rewrite !B2R_Bopp, Vx; ring|].
  assert (Nx : is_nan x = false) by (destruct x; try discriminate Fx; reflexivity). assert (Nx' : is_nan x' = false) by (destruct x'; try discriminate Fx'; reflexivity).
  rewrite !Bsign_Bopp by assumption. rewrite Sx. reflexivity.
Qed.
Lemma sc_abs k j x x' : (0 <= k)%Z -> few j -> sc k j x x' -> sc k j (Babs x) (Babs x').
Proof.
  intros K J H. destruct (sc_facts _ _ _ _ K J H) as ([Fx Fx'] & Vx & Sx & Gx & Bx).
  apply sc_make; [exact K|exact J|rewrite is_finite_Babs; exact Fx|rewrite is_finite_Babs; exact Fx'| |rewrite B2R_Babs, Rabs_Rabsolu; exact Bx| |].
  - rewrite B2R_Babs. unfold Rabs. destruct (Rcase_abs (B2R x)); [apply grid_opp|]; exact Gx.
  - rewrite !B2R_Babs, Vx, Rabs_mult, (Rabs_pos_eq (bpow radix2 k)) by apply bpow_ge_0. reflexivity.
  - assert (Nx : is_nan x = false) by (destruct x; try discriminate Fx; reflexivity). assert (Nx' : is_nan x' = false) by (destruct x'; try discriminate Fx'; reflexivity).
    rewrite !Bsign_Babs by assumption. reflexivity.
Qed.
Lemma sc_lt k i j x y x' y' : (0 <= k)%Z -> few i -> few j -> sc k i x x' -> sc k j y y' -> Bltb x' y' = Bltb x y.
Proof.
  intros K Ji Jj Hx Hy. destruct (sc_facts _ _ _ _ K Ji Hx) as ([Fx Fx'] & Vx & _ & _ & _). destruct (sc_facts _ _ _ _ K Jj Hy) as ([Fy Fy'] & Vy & _ & _ & _).
  rewrite !Bltb_correct by assumption. rewrite Vx, Vy. unfold Rlt_bool. rewrite Rcompare_mult_r by apply bpow_gt_0. reflexivity.
Qed.
Lemma sc_eq k i j x y x' y' : (0 <= k)%Z -> few i -> few j -> sc k i x x' -> sc k j y y' -> Beqb x' y' = Beqb x y.
Proof.
  intros K Ji Jj Hx Hy. destruct (sc_facts _ _ _ _ K Ji Hx) as ([Fx Fx'] & Vx & _ & _ & _). destruct (sc_facts _ _ _ _ K Jj Hy) as ([Fy Fy'] & Vy & _ & _ & _).
  rewrite !Beqb_correct by assumption. rewrite Vx, Vy. unfold Req_bool. rewrite Rcompare_mult_r by apply bpow_gt_0. reflexivity.
Qed.
Lemma sc_nan k j x x' : (0 <= k)%Z -> few j -> sc k j x x' -> is_nan x = false /\ is_nan x' = false.
Proof. intros K J H. destruct (sc_facts _ _ _ _ K J H) as ([Fx Fx'] & _). split; [destruct x; try discriminate Fx; reflexivity|destruct x'; try discriminate Fx'; reflexivity]. Qed.
Lemma f64_zero : f64_ofZ 0 = B754_zero false. Proof. reflexivity. Qed.
Lemma sc_0 k j : (0 <= k)%Z -> few j -> sc k j (f64_ofZ 0) (f64_ofZ 0).
Proof.
  intros K J. rewrite f64_zero. apply sc_make; [exact K|exact J|reflexivity|reflexivity|exact grid_0|cbn [B2R]; rewrite Rabs_R0, Rmult_0_l; apply Rmult_le_pos; [apply pos_INR|apply bpow_ge_0]|cbn [B2R]; ring|reflexivity].
Qed.
(** Exactly multiplied by [2^k]. *)
Definition ex (k : Z) (x y : f64) : Prop := (is_finite x = true /\ is_finite y = true) /\ B2R y = B2R x * bpow radix2 k /\ Bsign y = Bsign x.
(** A ratio does not change. *)
Lemma ex_ratio k (x y x' y' : f64) : ex k x x' -> ex k y y' -> Bdiv mode_NE x' y' = Bdiv mode_NE x y.
Proof.
  intros ([Fx Fx'] & Vx & Sx) ([Fy Fy'] & Vy & Sy).
  pose proof (bpow_gt_0 radix2 k) as P. destruct (Req_dec (B2R y) 0) as [Y0|Y0].
  - assert (ZV : forall u v : f64, is_finite u = true -> is_finite v = true -> B2R v = 0 -> Bdiv mode_NE u v = if Req_bool (B2R u) 0 then B754_nan else B754_infinity (xorb (Bsign u) (Bsign v))).
    { intros u v Fu Fv Z. destruct v as [sv| | |sv mv ev Hv]; try discriminate Fv.
      - destruct u as [su| | |su mu eu Hu]; try discriminate Fu; cbn [B2R Bdiv Bsign].
        + rewrite Req_bool_true by reflexivity. reflexivity.
        + rewrite Req_bool_false; [reflexivity|]. intros E. apply eq_0_F2R in E. cbn in E. destruct su; discriminate E.
      - exfalso. cbn [B2R] in Z. apply eq_0_F2R in Z. cbn in Z. destruct sv; discriminate Z. }
    rewrite (ZV x y Fx Fy Y0), (ZV x' y' Fx' Fy') by (rewrite Vy, Y0; ring). rewrite Sx, Sy, Vx.
    destruct (Req_bool_spec (B2R x) 0) as [E|E]; [rewrite Req_bool_true by (rewrite E; ring); reflexivity|].
    rewrite Req_bool_false; [reflexivity|]. intros Q. apply Rmult_integral in Q. lra.
  - assert (Y1 : B2R y' <> 0) by (rewrite Vy; intros Q; apply Rmult_integral in Q; lra).
    pose proof (Bdiv_correct 53 1024 _ _ mode_NE x y Y0) as C. pose proof (Bdiv_correct 53 1024 _ _ mode_NE x' y' Y1) as D.
    rewrite Vx, Vy in D. replace (B2R x * bpow radix2 k / (B2R y * bpow radix2 k)) with (B2R x / B2R y) in D by (field; split; lra).
    destruct (Rlt_bool (Rabs (rn (B2R x / B2R y))) (bpow radix2 1024)).
    + destruct C as (C1 & C2 & C3), D as (D1 & D2 & D3).
      assert (G1 : is_finite (Bdiv mode_NE x y) = true) by (exact (eq_trans C2 Fx)). assert (G2 : is_finite (Bdiv mode_NE x' y') = true) by (exact (eq_trans D2 Fx')).
      assert (N1 : is_nan (Bdiv mode_NE x y) = false) by (revert G1; generalize (Bdiv mode_NE x y); intros [| | |] G; try discriminate G; reflexivity).
      assert (N2 : is_nan (Bdiv mode_NE x' y') = false) by (revert G2; generalize (Bdiv mode_NE x' y'); intros [| | |] G; try discriminate G; reflexivity).
      apply times2_same; [exact G2|exact G1|exact (eq_trans D1 (eq_sym C1))|]. refine (eq_trans (D3 N2) _). rewrite Sx, Sy. symmetry. exact (C3 N1).
    + apply B2SF_inj. refine (eq_trans D (eq_trans _ (eq_sym C))). rewrite Sx, Sy. reflexivity.
Qed.

Lemma sc_ex k j x y : (0 <= k)%Z -> few j -> sc k j x y -> ex k x y.
Proof. intros K J H. destruct (sc_facts _ _ _ _ K J H) as (A & B & C & _ & _). exact (conj A (conj B C)). Qed.
Lemma sc_ratio k i j x y x' y' : (0 <= k)%Z -> few i -> few j -> sc k i x x' -> sc k j y y' -> Bdiv mode_NE x' y' = Bdiv mode_NE x y.
Proof. intros K Ji Jj Hx Hy. apply (ex_ratio k); [exact (sc_ex _ _ _ _ K Ji Hx)|exact (sc_ex _ _ _ _ K Jj Hy)]. Qed.

(** Multiplying by a whole number. *)
Lemma sc_mulz k j z x x' : (0 <= k)%Z -> (0 < z)%nat -> few (z * j) -> few z -> sc k j x x' ->
  sc k (z * j) (Bmult mode_NE (f64_ofZ (Z.of_nat z)) x) (Bmult mode_NE (f64_ofZ (Z.of_nat z)) x').
Proof.
  intros K Z0 J Zf H. assert (Jj : few j) by (apply few_le with (2 := J); nia).
  destruct (sc_facts _ _ _ _ K Jj H) as ([Fx Fx'] & Vx & Sx & Gx & Bx).
  destruct (f64_ofZ_correct (Z.of_nat z) ltac:(unfold few in Zf; rewrite Z.abs_eq by lia; exact Zf)) as [Vz Fz].
  set (c := f64_ofZ (Z.of_nat z)) in *. clearbody c.
  assert (G : grid (B2R c * B2R x)) by (rewrite Vz, Rmult_comm; apply grid_mulz, Gx).
  assert (B : Rabs (B2R c * B2R x) * bpow radix2 k <= INR (z * j) * bpow radix2 900).
  { rewrite Rabs_mult, Vz, <- abs_IZR, Z.abs_eq, mult_INR, INR_IZR_INZ by lia. assert (0 <= IZR (Z.of_nat z)) by (apply IZR_le; lia). rewrite !Rmult_assoc. apply Rmult_le_compat_l; [assumption|exact Bx]. }
  destruct (rounded_room k (z * j) _ K J (grid_sound _ G) B) as (R1 & R2 & R3).
  pose proof (Bmult_correct 53 1024 _ _ mode_NE c x) as C. rewrite Rlt_bool_true in C by exact R2. destruct C as (C1 & C2 & C3).
  pose proof (Bmult_correct 53 1024 _ _ mode_NE c x') as D. rewrite Vx, <- Rmult_assoc in D. rewrite Rlt_bool_true in D by exact R3. destruct D as (D1 & D2 & D3).
  rewrite Fz, Fx in C2. rewrite Fz, Fx' in D2. cbn [andb] in C2, D2.
  assert (N1 : is_nan (Bmult mode_NE c x) = false) by (revert C2; generalize (Bmult mode_NE c x); intros [| | |] Q; try discriminate Q; reflexivity).
  assert (N2 : is_nan (Bmult mode_NE c x') = false) by (revert D2; generalize (Bmult mode_NE c x'); intros [| | |] Q; try discriminate Q; reflexivity).
  apply sc_make; [exact K|exact J|exact C2|exact D2|rewrite C1; exact (grid_round _ G)|rewrite C1; exact R1|rewrite C1, D1; apply rn_sound; [exact K|apply grid_sound, G]|].
  refine (eq_trans (D3 N2) _). rewrite Sx. symmetry. exact (C3 N1).
Qed.
(** Dividing by a whole number: the last operation of an average. *)
Lemma sc_divz_ex k j z (c x x' : f64) : (0 <= k)%Z -> few j -> is_finite c = true -> B2R c = IZR z -> (0 < z <= 2 ^ 53)%Z -> sc k j x x' ->
  ex k (Bdiv mode_NE x c) (Bdiv mode_NE x' c).
Proof.
  intros K J Fc Vc Z0 H. destruct (sc_facts _ _ _ _ K J H) as ([Fx Fx'] & Vx & Sx & Gx & Bx).
  assert (P : 0 < IZR z) by (apply IZR_lt; lia). assert (P1 : 1 <= IZR z) by (apply IZR_le; lia). assert (C0 : B2R c <> 0) by (rewrite Vc; lra).
  assert (S : sound (B2R x / B2R c)).
  { rewrite Vc. destruct (grid_min _ Gx) as [->|L]; [right; unfold Rdiv; ring|left].
    unfold Rdiv. rewrite Rabs_mult, (Rabs_pos_eq (/ IZR z)) by (left; apply Rinv_0_lt_compat, P).
    assert (Q : bpow radix2 (-53) <= / IZR z) by (change (bpow radix2 (-53)) with (/ IZR (2 ^ 53)); apply Rinv_le; [exact P|apply IZR_le; lia]).
    apply Rle_trans with (bpow radix2 (-500) * bpow radix2 (-53)); [rewrite <- bpow_plus; apply bpow_le; lia|]. pose proof (bpow_ge_0 radix2 (-500)). pose proof (bpow_ge_0 radix2 (-53)). apply Rmult_le_compat; assumption. }
  assert (B : Rabs (B2R x / B2R c) * bpow radix2 k <= INR j * bpow radix2 900).
  { rewrite Vc. unfold Rdiv. rewrite Rabs_mult, (Rabs_pos_eq (/ IZR z)) by (left; apply Rinv_0_lt_compat, P). apply Rle_trans with (2 := Bx).
    assert (/ IZR z <= 1) by (rewrite <- Rinv_1; apply Rinv_le; lra). assert (0 < / IZR z) by (apply Rinv_0_lt_compat, P). pose proof (Rabs_pos (B2R x)). pose proof (bpow_ge_0 radix2 k). apply Rmult_le_compat_r; [assumption|]. rewrite <- (Rmult_1_r (Rabs (B2R x))) at 2. apply Rmult_le_compat_l; assumption. }
  destruct (rounded_room k j _ K J S B) as (R1 & R2 & R3).
  pose proof (Bdiv_correct 53 1024 _ _ mode_NE x c C0) as C. rewrite Rlt_bool_true in C by exact R2. destruct C as (C1 & C2 & C3).
  pose proof (Bdiv_correct 53 1024 _ _ mode_NE x' c C0) as D. rewrite Vx in D. replace (B2R x * bpow radix2 k / B2R c) with (B2R x / B2R c * bpow radix2 k) in D by (field; exact C0).
  rewrite Rlt_bool_true in D by exact R3. destruct D as (D1 & D2 & D3). rewrite Fx in C2. rewrite Fx' in D2.
  assert (N1 : is_nan (Bdiv mode_NE x c) = false) by (revert C2; generalize (Bdiv mode_NE x c); intros [| | |] Q; try discriminate Q; reflexivity).
  assert (N2 : is_nan (Bdiv mode_NE x' c) = false) by (revert D2; generalize (Bdiv mode_NE x' c); intros [| | |] Q; try discriminate Q; reflexivity).
  specialize (C3 N1). specialize (D3 N2). rewrite Sx in D3.
  rewrite rn_sound in D1 by assumption. split; [exact (conj C2 D2)|]. split; [exact (eq_trans D1 (eq_sym (f_equal (fun r => r * bpow radix2 k) C1)))|exact (eq_trans D3 (eq_sym C3))].
Qed.
Lemma sc_divz k j z (c x x' : f64) : (0 <= k)%Z -> few j -> is_finite c = true -> B2R c = IZR z -> (0 < z <= 2 ^ 53)%Z -> sc k j x x' ->
  Bdiv mode_NE x' c = times2 k (Bdiv mode_NE x c).
Proof.
  intros K J Fc Vc Z0 H. destruct (sc_facts _ _ _ _ K J H) as ([Fx Fx'] & Vx & Sx & Gx & Bx).
  assert (P : 0 < IZR z) by (apply IZR_lt; lia). assert (P1 : 1 <= IZR z) by (apply IZR_le; lia). assert (C0 : B2R c <> 0) by (rewrite Vc; lra).
  assert (S : sound (B2R x / B2R c)).
  { rewrite Vc. destruct (grid_min _ Gx) as [->|L]; [right; unfold Rdiv; ring|left].
    unfold Rdiv. rewrite Rabs_mult, (Rabs_pos_eq (/ IZR z)) by (left; apply Rinv_0_lt_compat, P).
    assert (Q : bpow radix2 (-53) <= / IZR z) by (change (bpow radix2 (-53)) with (/ IZR (2 ^ 53)); apply Rinv_le; [exact P|apply IZR_le; lia]).
    apply Rle_trans with (bpow radix2 (-500) * bpow radix2 (-53)); [rewrite <- bpow_plus; apply bpow_le; lia|]. pose proof (bpow_ge_0 radix2 (-500)). pose proof (bpow_ge_0 radix2 (-53)). apply Rmult_le_compat; assumption. }
  assert (B : Rabs (B2R x / B2R c) * bpow radix2 k <= INR j * bpow radix2 900).
  { rewrite Vc. unfold Rdiv. rewrite Rabs_mult, (Rabs_pos_eq (/ IZR z)) by (left; apply Rinv_0_lt_compat, P). apply Rle_trans with (2 := Bx).
    assert (/ IZR z <= 1) by (rewrite <- Rinv_1; apply Rinv_le; lra). assert (0 < / IZR z) by (apply Rinv_0_lt_compat, P). pose proof (Rabs_pos (B2R x)). pose proof (bpow_ge_0 radix2 k). apply Rmult_le_compat_r; [assumption|]. rewrite <- (Rmult_1_r (Rabs (B2R x))) at 2. apply Rmult_le_compat_l; assumption. }
  destruct (rounded_room k j _ K J S B) as (R1 & R2 & R3).
  pose proof (Bdiv_correct 53 1024 _ _ mode_NE x c C0) as C. rewrite Rlt_bool_true in C by exact R2. destruct C as (C1 & C2 & C3).
  pose proof (Bdiv_correct 53 1024 _ _ mode_NE x' c C0) as D. rewrite Vx in D. replace (B2R x * bpow radix2 k / B2R c) with (B2R x / B2R c * bpow radix2 k) in D by (field; exact C0).
  rewrite Rlt_bool_true in D by exact R3. destruct D as (D1 & D2 & D3). rewrite Fx in C2. rewrite Fx' in D2.
  assert (N1 : is_nan (Bdiv mode_NE x c) = false) by (revert C2; generalize (Bdiv mode_NE x c); intros [| | |] Q; try discriminate Q; reflexivity).
  assert (N2 : is_nan (Bdiv mode_NE x' c) = false) by (revert D2; generalize (Bdiv mode_NE x' c); intros [| | |] Q; try discriminate Q; reflexivity).
  specialize (C3 N1). specialize (D3 N2). rewrite Sx in D3.
  pose proof (Bldexp_correct 53 1024 _ _ mode_NE (Bdiv mode_NE x c) k) as L. rewrite C1 in L. rewrite rn_sound in D1 by assumption.
  assert (G : rn (rn (B2R x / B2R c) * bpow radix2 k) = rn (B2R x / B2R c) * bpow radix2 k).
  { rewrite <- (rn_sound k _ K S). apply round_generic; [apply valid_rnd_round_mode|]. change fexp64 with (FLT_exp (-1074) 53). apply generic_format_round; auto with typeclass_instances. }
  rewrite G in L. rewrite Rlt_bool_true in L by (rewrite <- (rn_sound k _ K S); exact R3). destruct L as (L1 & L2 & L3).
  apply times2_same; [exact D2|exact (eq_trans L2 C2)|exact (eq_trans D1 (eq_sym L1))|exact (eq_trans D3 (eq_sym (eq_trans L3 C3)))].
Qed.

Notation scaled k := (map (option_map (times2 k))).
Definition all_usable (k : Z) (xs : list (option f64)) : Prop := forall x, In (Some x) xs -> usable k x.

Section Split.
  Variable log10 : f64 -> f64.
  #[local] Instance N125 : Num f64 := IEEE log10.
  #[local] Instance O125 : OrdNum f64 := IEEEOrd log10.
  Variable k : Z.
  Hypothesis K : (0 <= k)%Z.
  Notation T := (scaled k).

  Definition osc (j : nat) (o o' : option f64) : Prop :=
    match o, o' with Some x, Some y => sc k j x y | None, None => True | _, _ => False end.
  Definition rooms (j : nat) (h : list (option f64)) : Prop := forall x, In (Some x) h -> room k j x.
  Lemma usable_rooms h : all_usable k h -> rooms 1 h.
  Proof. intros H x I. apply usable_room, H, I. Qed.
  Lemma osc_of j o : (forall x, o = Some x -> room k j x) -> osc j o (option_map (times2 k) o).
  Proof. intros H. destruct o as [x|]; [|exact I]. split; [apply H; reflexivity|reflexivity]. Qed.
  Lemma osc_eq j o o' : osc j o o' -> o' = option_map (times2 k) o.
  Proof. destruct o, o'; try contradiction; [intros [_ ->]|intros _]; reflexivity. Qed.
  Lemma osc_room j o o' x : osc j o o' -> o = Some x -> room k j x.
  Proof. intros H ->. destruct o'; [apply H|contradiction]. Qed.
  Lemma osc_le i j o o' : (i <= j)%nat -> osc i o o' -> osc j o o'.
  Proof. intros L. destruct o, o'; cbn; try contradiction; [apply sc_le, L|auto]. Qed.
  Lemma osc_ago j n h : rooms j h -> osc j (join (ago n h)) (join (ago n (T h))).
  Proof.
    intros H. rewrite ago_map. replace (join (option_map (option_map (times2 k)) (ago n h))) with (option_map (times2 k) (join (ago n h))) by (destruct (ago n h) as [[]|]; reflexivity).
    apply osc_of. intros x E. apply H, (in_ago _ _ _ E).
  Qed.
  Lemma osc_newest j h : rooms j h -> osc j (join (newest h)) (join (newest (T h))).
  Proof.
    intros H. rewrite newest_map. replace (join (option_map (option_map (times2 k)) (newest h))) with (option_map (times2 k) (join (newest h))) by (destruct (newest h) as [[]|]; reflexivity).
    apply osc_of. intros x E. apply H, (in_newest _ _ E).
  Qed.
  Lemma osc_diff i j a b a' b' : few (i + j) -> osc i a a' -> osc j b b' -> osc (i + j) (ps_diff a b) (ps_diff a' b').
  Proof. intros J. destruct a, a'; cbn; try contradiction; destruct b, b'; cbn; try contradiction; auto. apply sc_sub; assumption. Qed.
  Lemma osc_abs j a a' : few j -> osc j a a' -> osc j (ps_abs a) (ps_abs a').
  Proof. intros J. destruct a, a'; cbn; try contradiction; auto. apply sc_abs; assumption. Qed.
  Lemma sc_max j x y x' y' : few j -> sc k j x x' -> sc k j y y' -> sc k j (fmax x y) (fmax x' y').
  Proof.
    intros J X Y. unfold fmax. change (@fisnan f64 N125) with (@is_nan 53 1024). change (@fltb f64 N125) with (@Bltb 53 1024). rewrite (sc_lt _ _ _ _ _ _ _ K J J X Y).
    destruct (sc_nan _ _ _ _ K J X) as [-> ->], (sc_nan _ _ _ _ K J Y) as [-> ->]. destruct (Bltb x y); assumption.
  Qed.
  Lemma sc_min j x y x' y' : few j -> sc k j x x' -> sc k j y y' -> sc k j (fmin x y) (fmin x' y').
  Proof.
    intros J X Y. unfold fmin. change (@fisnan f64 N125) with (@is_nan 53 1024). change (@fltb f64 N125) with (@Bltb 53 1024). rewrite (sc_lt _ _ _ _ _ _ _ K J J Y X).
    destruct (sc_nan _ _ _ _ K J X) as [-> ->], (sc_nan _ _ _ _ K J Y) as [-> ->]. destruct (Bltb y x); assumption.
  Qed.
  Lemma osc_max j a b a' b' : few j -> osc j a a' -> osc j b b' -> osc j (ps_max a b) (ps_max a' b').
  Proof. intros J. destruct a, a'; cbn; try contradiction; destruct b, b'; cbn; try contradiction; auto. apply sc_max; assumption. Qed.
  Lemma osc_min j a b a' b' : few j -> osc j a a' -> osc j b b' -> osc j (ps_min a b) (ps_min a' b').
  Proof. intros J. destruct a, a'; cbn; try contradiction; destruct b, b'; cbn; try contradiction; auto. apply sc_min; assumption. Qed.
  Lemma osc_0 j : few j -> osc j (Some (fZ 0)) (Some (fZ 0)).
  Proof. intros J. apply (sc_0 k j K J). Qed.
  Lemma sc_eq0 j x x' : few j -> sc k j x x' -> (x' ==? fZ 0)%num = (x ==? fZ 0)%num.
  Proof. intros J H. apply (sc_eq _ _ _ _ _ _ _ K J J H (sc_0 k j K J)). Qed.
  Lemma ratio_same i j a b a' b' : few i -> few j -> osc i a a' -> osc j b b' -> ps_div a' b' = ps_div a b.
  Proof.
    intros Ji Jj. destruct a as [a|], a' as [a'|]; cbn [osc]; try contradiction; destruct b as [b|], b' as [b'|]; cbn [osc ps_div]; try contradiction; try reflexivity.
    intros A B. rewrite (sc_eq0 _ _ _ Jj B). destruct (b ==? fZ 0)%num; [reflexivity|]. f_equal. exact (sc_ratio _ _ _ _ _ _ _ K Ji Jj A B).
  Qed.

  (** prefixes *)
  Lemma prefixes2 {X} j (f f' : list X -> option f64) (g : X -> X) xs : (forall p, In p (prefixes xs) -> osc j (f p) (f' (map g p))) ->
    rooms j (each_prefix f xs) /\ each_prefix f' (map g xs) = T (each_prefix f xs).
  Proof.
    intros H. split.
    - intros x I. unfold each_prefix in I. apply in_map_iff in I. destruct I as (p & Ep & Ip). exact (osc_room _ _ _ _ (H p Ip) Ep).
    - rewrite each_prefix_of_map, each_prefix_map. unfold each_prefix. apply map_ext_in. intros p Ip. exact (osc_eq _ _ _ (H p Ip)).
  Qed.
  Lemma prefix_rooms j xs p : rooms j xs -> In p (prefixes xs) -> rooms j p.
  Proof. intros H I x Ix. apply in_prefixes in I. destruct I as (n & _ & ->). apply H, (firstn_In _ _ _ Ix). Qed.
  Lemma prefix_len {X} (xs p : list X) : In p (prefixes xs) -> (List.length p <= List.length xs)%nat.
  Proof. intros I. apply in_prefixes in I. destruct I as (n & _ & ->). rewrite firstn_length. lia. Qed.
  Lemma firstn_rooms j n xs : rooms j xs -> rooms j (firstn n xs).
  Proof. intros H x Ix. apply H, (firstn_In _ _ _ Ix). Qed.
  Lemma rooms_app j l m : rooms j (l ++ m) -> rooms j l /\ rooms j m.
  Proof. intros H. split; intros x I; apply H, in_or_app; tauto. Qed.

  (** ** running sums *)
  Lemma racc2 j len h : few (2 * j * List.length h) -> rooms j h -> sc k (2 * j * List.length h) (racc len h) (racc len (T h)).
  Proof.
    induction h as [|x h IH] using rev_ind; intros J H.
    - change (racc len []) with (@fZ f64 N125 0). apply (sc_0 k _ K). unfold few; cbn; lia.
    - rewrite map_app. cbn [map]. rewrite !racc_snoc. pose proof (osc_ago j (len - 1) _ H) as O. rewrite map_app in O. cbn [map] in O. destruct (rooms_app _ _ _ H) as [Hh Hx].
      rewrite app_length in *. cbn [List.length] in *. replace (2 * j * (List.length h + 1))%nat with (2 * j * List.length h + j + j)%nat in * by lia.
      specialize (IH ltac:(apply few_le with (2 := J); lia) Hh).
      assert (A1 : sc k (2 * j * List.length h + j) (oadd (racc len h) x) (oadd (racc len (T h)) (option_map (times2 k) x))).
      { destruct x as [v|]; cbn [oadd option_map]; [|apply (sc_le k (2 * j * List.length h)); [lia|exact IH]].
        apply sc_add; [exact K|apply few_le with (2 := J); lia|exact IH|]. split; [apply Hx; left; reflexivity|reflexivity]. }
      destruct (join (ago (len - 1) (h ++ [x]))) as [v|], (join (ago (len - 1) (T h ++ [option_map (times2 k) x]))) as [v'|]; cbn [osc] in O; try contradiction; cbn [osub].
      + apply sc_sub; [exact K|exact J|exact A1|exact O].
      + apply (sc_le k (2 * j * List.length h + j)); [lia|exact A1].
  Qed.
  Lemma rsum2 j len h : few (2 * j * List.length h) -> rooms j h -> sc k (2 * j * List.length h) (rsum len h) (rsum len (T h)).
  Proof.
    intros J H. destruct h as [|x h _] using rev_ind; [apply (racc2 j len []); assumption|].
    rewrite map_app. cbn [map]. rewrite !rsum_snoc. destruct (rooms_app _ _ _ H) as [Hh Hx]. rewrite app_length in *. cbn [List.length] in *.
    assert (A : sc k (2 * j * List.length h) (racc len h) (racc len (T h))) by (apply racc2; [apply few_le with (2 := J); lia|exact Hh]).
    destruct x as [v|]; cbn [oadd option_map]; [|apply (sc_le k (2 * j * List.length h)); [lia|exact A]].
    apply (sc_le k (2 * j * List.length h + j)); [lia|]. apply sc_add; [exact K|apply few_le with (2 := J); lia|exact A|]. split; [apply Hx; left; reflexivity|reflexivity].
  Qed.
  Lemma sum2 j len h : few (2 * j * List.length h) -> rooms j h -> osc (2 * j * List.length h) (sum_out len h) (sum_out len (T h)).
  Proof.
    intros J H. unfold sum_out. rewrite window_mapf. destruct (window len h); cbn [option_map osc]; [|exact I]. apply rsum2; assumption.
  Qed.

  (** ** C125: what scales *)
  Theorem C125_sum len c xs : (1 <= len)%nat -> few (2 * List.length xs) -> all_usable k xs ->
    exists os, run_new (sum_new len) sum_step c xs = Ok os /\ run_new (sum_new len) sum_step c (T xs) = Ok (T os).
  Proof.
    intros L J U. rewrite !sum_run by exact L. eexists; split; [reflexivity|]. f_equal. apply (prefixes2 (2 * List.length xs)). intros p Ip.
    pose proof (prefix_len _ _ Ip). apply (osc_le (2 * 1 * List.length p)); [lia|]. apply sum2; [apply few_le with (2 := J); lia|]. apply (prefix_rooms 1 xs); [apply usable_rooms, U|exact Ip].
  Qed.
  Lemma fnat_64 n : few n -> is_finite (fnat n) = true /\ B2R (fnat n) = IZR (Z.of_nat n).
  Proof. intros H. destruct (f64_ofZ_correct (Z.of_nat n)) as [A B]; [unfold few in H; rewrite Z.abs_eq by lia; exact H|]. split; assumption. Qed.
  Theorem C125_sma len c xs : (1 <= len)%nat -> few len -> few (2 * List.length xs) -> all_usable k xs ->
    exists os, run_new (sma_new len) sma_step c xs = Ok os /\ run_new (sma_new len) sma_step c (T xs) = Ok (T os).
  Proof.
    intros L LF J U. rewrite !sma_run by exact L. eexists; split; [reflexivity|]. f_equal. rewrite each_prefix_of_map, each_prefix_map. unfold each_prefix. apply map_ext_in. intros p Ip.
    assert (H : rooms 1 p) by (apply (prefix_rooms 1 xs); [apply usable_rooms, U|exact Ip]). pose proof (prefix_len _ _ Ip).
    assert (JP : few (2 * 1 * List.length p)) by (apply few_le with (2 := J); lia).
    unfold sma_out. destruct (len =? 1)%nat; [exact (osc_eq _ _ _ (osc_newest 1 p H))|]. rewrite window_mapf. destruct (window len p); cbn [option_map]; [|reflexivity]. f_equal.
    destruct (fnat_64 len LF) as [Fn Vn]. apply (sc_divz k (2 * 1 * List.length p) (Z.of_nat len) (fnat len) (rsum len p) (rsum len (T p)) K JP Fn Vn); [unfold few in LF; lia|]. apply rsum2; assumption.
  Qed.
  Theorem C125_change len c xs : (1 <= len)%nat -> all_usable k xs ->
    exists os, run_new (change_new len) change_step c xs = Ok os /\ run_new (change_new len) change_step c (T xs) = Ok (T os).
  Proof.
    intros L U. rewrite !change_run by exact L. eexists; split; [reflexivity|]. f_equal. apply (prefixes2 2). intros p Ip.
    assert (H : rooms 1 p) by (apply (prefix_rooms 1 xs); [apply usable_rooms, U|exact Ip]).
    pose proof (osc_ago 1 len p H) as A. pose proof (osc_newest 1 p H) as B. unfold change_out.
    destruct (join (ago len p)) as [a|], (join (ago len (T p))) as [a'|]; cbn [osc] in A |- *; try contradiction; [|exact I].
    destruct (join (newest p)) as [b|], (join (newest (T p))) as [b'|]; cbn [osc] in B |- *; try contradiction; [|exact I].
    rewrite (sc_eq0 1 a a') by (exact A || (unfold few; cbn; lia)). destruct (a ==? fZ 0)%num; [exact I|]. apply (sc_sub k 1 1); [exact K|unfold few; cbn; lia|exact B|exact A].
  Qed.
  Theorem C125_roc len c xs : (1 <= len)%nat -> all_usable k xs ->
    run_new (roc_new len) roc_step c (T xs) = run_new (roc_new len) roc_step c xs.
  Proof.
    intros L U. rewrite !roc_run by exact L. f_equal. rewrite each_prefix_of_map. unfold each_prefix. apply map_ext_in. intros p Ip.
    assert (H : rooms 1 p) by (apply (prefix_rooms 1 xs); [apply usable_rooms, U|exact Ip]).
    pose proof (osc_ago 1 len p H) as A. pose proof (osc_newest 1 p H) as B. unfold roc_out.
    destruct (join (ago len p)) as [a|], (join (ago len (T p))) as [a'|]; cbn [osc] in A |- *; try contradiction; [|reflexivity].
    destruct (join (newest p)) as [b|], (join (newest (T p))) as [b'|]; cbn [osc] in B |- *; try contradiction; [|reflexivity].
    rewrite (sc_eq0 1 a a') by (exact A || (unfold few; cbn; lia)). destruct (a ==? fZ 0)%num; [reflexivity|]. f_equal.
    refine (sc_ratio k (100 * 2) 1 _ _ _ _ K _ _ (sc_mulz k 2 100 _ _ K _ _ _ _) A); try (unfold few; cbn; lia). apply (sc_sub k 1 1); [exact K|unfold few; cbn; lia|exact B|exact A].
  Qed.

  (** extrema *)
  Lemma best2 j (cmp : f64 -> f64 -> bool) l : (forall x y, room k j x -> room k j y -> cmp (times2 k x) (times2 k y) = cmp x y) -> Forall (room k j) l ->
    osc j (best cmp l) (best cmp (map (times2 k) l)).
  Proof.
    intros C H. destruct l as [|x l]; [exact I|]. cbn [map best osc]. inversion H as [|? ? Hx Hl E]; subst. clear H. revert x Hx. induction Hl as [|y l Hy Hl IH]; intros x Hx; cbn [map].
    - rewrite !beats_nil. split; [exact Hx|reflexivity].
    - rewrite !beats_cons, C by assumption. destruct (cmp y x); apply IH; assumption.
  Qed.
  Lemma rooms_present j n h : rooms j h -> Forall (room k j) (present (lastn n h)).
  Proof.
    intros H. apply Forall_forall. intros x I. apply H, (lastn_In n). clear H. induction (lastn n h) as [|[y|] l IH]; cbn in *; [contradiction| |right; apply IH, I].
    destruct I as [->|I]; [left; reflexivity|right; apply IH, I].
  Qed.
  Lemma present_T h : present (T h) = map (times2 k) (present h).
  Proof. induction h as [|[x|] h IH]; cbn [map option_map present]; rewrite ?IH; reflexivity. Qed.
  Lemma highest2 j len i0 h : few j -> rooms j h -> osc j (highest_out len i0 h) (highest_out len i0 (T h)).
  Proof.
    intros J H. unfold highest_out. rewrite map_length, lastn_map', present_T. destruct (len <=? i0 + List.length h)%nat; [|exact I].
    apply best2; [|apply rooms_present, H]. intros x y X Y. apply (sc_lt k j j); [exact K|exact J|exact J|split; [exact Y|reflexivity]|split; [exact X|reflexivity]].
  Qed.
  Lemma lowest2 j len i0 h : few j -> rooms j h -> osc j (lowest_out len i0 h) (lowest_out len i0 (T h)).
  Proof.
    intros J H. unfold lowest_out. rewrite map_length, lastn_map', present_T. destruct (len <=? i0 + List.length h)%nat; [|exact I].
    apply best2; [|apply rooms_present, H]. intros x y X Y. apply (sc_lt k j j); [exact K|exact J|exact J|split; [exact X|reflexivity]|split; [exact Y|reflexivity]].
  Qed.
  Lemma few1 : few 1. Proof. unfold few; cbn; lia. Qed.
  Lemma few2 : few 2. Proof. unfold few; cbn; lia. Qed.
  Theorem C125_highest len c xs : (1 <= len)%nat -> all_usable k xs ->
    exists os, run_new (highest_new len) highest_step c xs = Ok os /\ run_new (highest_new len) highest_step c (T xs) = Ok (T os).
  Proof.
    intros L U. rewrite !(makes_run _ _ _ _ c _ (highest_makes len L)) by exact I. eexists; split; [reflexivity|]. f_equal. apply (prefixes2 1). intros p Ip.
    apply highest2; [exact few1|]. apply (prefix_rooms 1 xs); [apply usable_rooms, U|exact Ip].
  Qed.
  Theorem C125_lowest len c xs : (1 <= len)%nat -> all_usable k xs ->
    exists os, run_new (lowest_new len) lowest_step c xs = Ok os /\ run_new (lowest_new len) lowest_step c (T xs) = Ok (T os).
  Proof.
    intros L U. rewrite !(makes_run _ _ _ _ c _ (lowest_makes len L)) by exact I. eexists; split; [reflexivity|]. f_equal. apply (prefixes2 1). intros p Ip.
    apply lowest2; [exact few1|]. apply (prefix_rooms 1 xs); [apply usable_rooms, U|exact Ip].
  Qed.
  (** weighted average *)
  Lemma fnat_add a b : few (a + b) -> fadd (fnat a) (fnat b) = fnat (a + b).
  Proof.
    intros J. destruct (fnat_64 a) as [Fa Va]; [apply few_le with (2 := J); lia|]. destruct (fnat_64 b) as [Fb Vb]; [apply few_le with (2 := J); lia|]. destruct (fnat_64 (a + b) J) as [Fs Vs].
    assert (Sg : forall n, few n -> Bsign (fnat n) = false).
    { intros n Hn. destruct n as [|n]; [reflexivity|]. destruct (fnat_64 (S n) Hn) as [Fn Vn]. enough (G : forall y : f64, is_finite y = true -> B2R y = IZR (Z.of_nat (S n)) -> Bsign y = false) by exact (G _ Fn Vn). clear Fn Vn. intros [s|s| |s m e Hb] Fn Vn; try discriminate Fn.
      - exfalso. change (0 = IZR (Z.of_nat (S n))) in Vn. assert (Q : 0 < IZR (Z.of_nat (S n))) by (apply IZR_lt; lia). rewrite <- Vn in Q. lra.
      - destruct s; [exfalso|reflexivity]. assert (Q : 0 < IZR (Z.of_nat (S n))) by (apply IZR_lt; lia). assert (Q2 : B2R (B754_finite true m e Hb) < 0) by (apply F2R_lt_0; cbn; lia). rewrite <- Vn in Q. exact (Rlt_asym _ _ Q Q2). }
    pose proof (Bplus_correct 53 1024 _ _ mode_NE (fnat a) (fnat b) Fa Fb) as C. rewrite Va, Vb, <- plus_IZR, <- Nat2Z.inj_add in C.
    assert (G : rn (IZR (Z.of_nat (a + b))) = IZR (Z.of_nat (a + b))) by (rewrite <- Vs; apply round_generic; [apply valid_rnd_round_mode|apply (generic_format_B2R 53 1024)]).
    rewrite G in C. rewrite Rlt_bool_true in C by (rewrite <- Vs; apply (abs_B2R_lt_emax 53 1024)). destruct C as (C1 & C2 & C3).
    apply times2_same; [exact C2|exact Fs|exact (eq_trans C1 (eq_sym Vs))|]. refine (eq_trans C3 _). rewrite !Sg by (apply few_le with (2 := J); lia || exact J).
    destruct (Rcompare_spec (IZR (Z.of_nat (a + b))) 0) as [Q|Q|Q]; try reflexivity. exfalso. assert (0 <= IZR (Z.of_nat (a + b))) by (apply IZR_le; lia). lra.
  Qed.
  Lemma wma_sums2 j len vs : Forall (room k j) vs -> forall i a b s s', (i + List.length vs <= len)%nat -> few (a + List.length vs * (len * len * j)) -> few (b + List.length vs * (len * len)) ->
    few (len * len) -> sc k a s s' -> exists z n, wma_sums len vs i s (fnat b) = (z, fnat n) /\ (b <= n)%nat /\ (vs <> [] -> 1 <= n)%nat /\ few n /\
      exists z', wma_sums len (map (times2 k) vs) i s' (fnat b) = (z', fnat n) /\ sc k (a + List.length vs * (len * len * j)) z z'.
  Proof.
    induction 1 as [|v vs Hv Hvs IH]; intros i a b s s' L Ja Jb Jl S; cbn [map wma_sums List.length] in *.
    - exists s, b. split; [reflexivity|]. split; [lia|]. split; [congruence|]. split; [apply few_le with (2 := Jb); lia|]. exists s'. split; [reflexivity|]. replace (a + 0 * (len * len * j))%nat with a by lia. exact S.
    - set (w := ((len - i) * len)%nat) in *. assert (W : (1 <= w <= len * len)%nat) by (subst w; split; nia).
      assert (V : sc k (w * j) (fmul v (fnat w)) (fmul (times2 k v) (fnat w))).
      { change (sc k (w * j) (Bmult mode_NE v (f64_ofZ (Z.of_nat w))) (Bmult mode_NE (times2 k v) (f64_ofZ (Z.of_nat w)))). rewrite !(PMono.mult_comm _ (f64_ofZ (Z.of_nat w))).
        apply sc_mulz; [exact K|lia|apply few_le with (2 := Ja); nia|apply few_le with (2 := Jl); lia|]. split; [exact Hv|reflexivity]. }
      rewrite fnat_add by (apply few_le with (2 := Jb); nia).
      destruct (IH (1 + i)%nat (a + len * len * j)%nat (b + w)%nat (fadd s (fmul v (fnat w))) (fadd s' (fmul (times2 k v) (fnat w)))) as (z & n & E & B & N & Fn & z' & E' & S'); [lia|apply few_le with (2 := Ja); nia|apply few_le with (2 := Jb); nia|exact Jl| |].
      { apply (sc_le k (a + w * j)); [nia|]. apply sc_add; [exact K|apply few_le with (2 := Ja); nia|exact S|exact V]. }
      exists z, n. split; [exact E|]. split; [lia|]. split; [lia|]. split; [exact Fn|]. exists z'. split; [exact E'|]. eapply sc_le; [|exact S']. nia.
  Qed.
  Theorem C125_wma len c xs : (1 <= len)%nat -> few (len * len * len) -> all_usable k xs ->
    exists os, run_new (wma_new len) wma_step c xs = Ok os /\ run_new (wma_new len) wma_step c (T xs) = Ok (T os).
  Proof.
    intros L J U. rewrite !wma_run by exact L. eexists; split; [reflexivity|]. f_equal. rewrite each_prefix_of_map, each_prefix_map. unfold each_prefix. apply map_ext_in. intros p Ip.
    assert (H : rooms 1 p) by (apply (prefix_rooms 1 xs); [apply usable_rooms, U|exact Ip]).
    assert (NE : p <> []) by (apply (nonnil_prefix _ _ Ip)).
    unfold wma_out. rewrite map_length. destruct (len <=? c_index c + List.length p)%nat; [|reflexivity]. rewrite lastn_map'.
    assert (AT : forall l, all_some (T l) = option_map (map (times2 k)) (all_some l)).
    { clear. induction l as [|[x|] l IH]; cbn [map option_map all_some]; [reflexivity| |reflexivity]. rewrite IH. destruct (all_some l); reflexivity. }
    rewrite AT. destruct (all_some (lastn len p)) as [vs|] eqn:E; cbn [option_map]; [|reflexivity]. rewrite <- map_rev. f_equal.
    pose proof (all_some_length _ _ E) as LL. apply all_some_Some in E.
    assert (LV : (1 <= List.length (rev vs) <= len)%nat).
    { rewrite rev_length. unfold lastn in LL. rewrite skipn_length in LL. destruct p; [congruence|]. cbn [List.length] in *. lia. }
    assert (RV : Forall (room k 1) (rev vs)).
    { apply Forall_forall. intros x Ix. apply in_rev in Ix. apply H, (lastn_In len). rewrite E. apply in_map_iff. exists x. split; [reflexivity|exact Ix]. }
    destruct (wma_sums2 1 len (rev vs) RV 0 0 0 (fZ 0) (fZ 0)) as (z & n & E1 & _ & N & Fn & z' & E2 & S); [lia|apply few_le with (2 := J); nia|apply few_le with (2 := J); nia|apply few_le with (2 := J); nia|apply (sc_0 k 0 K); unfold few; cbn; lia|].
    change (fnat 0) with (@fZ f64 N125 0) in *. rewrite E1, E2. cbn beta iota. destruct (fnat_64 n Fn) as [F1 F2].
    apply (sc_divz k (0 + List.length (rev vs) * (len * len * 1)) (Z.of_nat n) (fnat n) z z' K); [apply few_le with (2 := J); nia|exact F1|exact F2| |exact S].
    assert (1 <= n)%nat by (apply N; intros Q; rewrite Q in LV; cbn in LV; lia). unfold few in Fn. lia.
  Qed.

  (** percent rank: only comparisons. *)
  Lemma sc_leb i j x y x' y' : few i -> few j -> sc k i x x' -> sc k j y y' -> (x' <=? y')%num = (x <=? y)%num.
  Proof.
    intros Ji Jj Hx Hy. destruct (sc_facts _ _ _ _ K Ji Hx) as ([Fx Fx'] & Vx & _ & _ & _). destruct (sc_facts _ _ _ _ K Jj Hy) as ([Fy Fy'] & Vy & _ & _ & _).
    change (Bleb x' y' = Bleb x y). rewrite !Bleb_correct by assumption. rewrite Vx, Vy. unfold Rle_bool. rewrite Rcompare_mult_r by apply bpow_gt_0. reflexivity.
  Qed.
  Theorem C125_percent_rank len c xs : (1 <= len)%nat -> all_usable k xs ->
    run_new (prank_new len) prank_step c (T xs) = run_new (prank_new len) prank_step c xs.
  Proof.
    intros L U. rewrite !(makes_run _ _ _ _ c _ (prank_makes len L)) by exact I. f_equal. rewrite each_prefix_of_map. unfold each_prefix. apply map_ext_in. intros p Ip.
    assert (H : rooms 1 p) by (apply (prefix_rooms 1 xs); [apply usable_rooms, U|exact Ip]).
    pose proof (osc_newest 1 p H) as B. unfold prank_out. rewrite map_length.
    destruct (join (newest p)) as [b|], (join (newest (T p))) as [b'|]; cbn [osc] in B |- *; try contradiction; [|reflexivity].
    destruct (len <? c_index c + List.length p)%nat; [|reflexivity]. f_equal. unfold prank_val. rewrite removelast_map, lastn_map'. do 2 f_equal. f_equal.
    assert (H' : rooms 1 (lastn len (removelast p))).
    { intros x Ix. apply H. apply lastn_In in Ix. clear -Ix. induction p as [|y p IH]; [contradiction|]. destruct p; [contradiction|]. cbn [removelast] in Ix. destruct Ix as [->|Ix]; [left; reflexivity|right; apply IH, Ix]. }
    revert H'. generalize (lastn len (removelast p)). clear -B K. induction l as [|[x|] l IH]; intros H'; cbn [map option_map filter]; [reflexivity| |].
    - rewrite (sc_leb 1 1 x b (times2 k x) b' few1 few1) by (exact B || (split; [apply H'; left; reflexivity|reflexivity])).
      destruct (x <=? b)%num; cbn [List.length]; rewrite IH by (intros y Iy; apply H'; right; exact Iy); reflexivity.
    - apply IH. intros y Iy. apply H'. right. exact Iy.
  Qed.

  (** Stochastic oscillator of (value, high, low). *)
  Definition scaled3 (z : option f64 * option f64 * option f64) := (option_map (times2 k) (fst (fst z)), option_map (times2 k) (snd (fst z)), option_map (times2 k) (snd z)).
  Lemma stoch2 len i0 h : rooms 1 (map (fun z => fst (fst z)) h) -> rooms 1 (map (fun z => snd (fst z)) h) -> rooms 1 (map snd h) ->
    stoch_out len i0 (map scaled3 h) = stoch_out len i0 h.
  Proof.
    induction h as [|[[v hi] lo] h IH] using rev_ind; intros H1 H2 H3; [reflexivity|]. rewrite map_app in *. cbn [map] in *. cbn [fst snd] in *. unfold scaled3 at 2. cbn [fst snd].
    rewrite !stoch_out_snoc, map_length. rewrite (IH (proj1 (rooms_app _ _ _ H1)) (proj1 (rooms_app _ _ _ H2)) (proj1 (rooms_app _ _ _ H3))).
    destruct (len <=? i0 + List.length h + 1)%nat; [|reflexivity].
    assert (EH : map (fun y : option f64 * option f64 * option f64 => snd (fst y)) (map scaled3 h) ++ [option_map (times2 k) hi] = T (map (fun y => snd (fst y)) h ++ [hi])) by (rewrite map_app, !map_map; reflexivity).
    assert (EL : map snd (map scaled3 h) ++ [option_map (times2 k) lo] = T (map snd h ++ [lo])) by (rewrite map_app, !map_map; reflexivity).
    rewrite EH, EL. clear EH EL.
    set (hs := map (fun y : option f64 * option f64 * option f64 => snd (fst y)) h ++ [hi]) in *. set (ls := map snd h ++ [lo]) in *.
    assert (A : osc 1 (best (fun v m => (m <? v)%num) (present (lastn len hs))) (best (fun v m => (m <? v)%num) (present (lastn len (T hs))))).
    { rewrite lastn_map', present_T. apply best2; [|apply rooms_present, H2]. intros x y X Y. apply (sc_lt k 1 1); [exact K|exact few1|exact few1|split; [exact Y|reflexivity]|split; [exact X|reflexivity]]. }
    assert (B : osc 1 (best (fun v m => (v <? m)%num) (present (lastn len ls))) (best (fun v m => (v <? m)%num) (present (lastn len (T ls))))).
    { rewrite lastn_map', present_T. apply best2; [|apply rooms_present, H3]. intros x y X Y. apply (sc_lt k 1 1); [exact K|exact few1|exact few1|split; [exact X|reflexivity]|split; [exact Y|reflexivity]]. }
    destruct v as [v|]; cbn [option_map]; [|reflexivity].
    assert (V : sc k 1 v (times2 k v)) by (split; [apply H1, in_or_app; right; left; reflexivity|reflexivity]).
    destruct (best _ (present (lastn len hs))) as [mx|], (best _ (present (lastn len (T hs)))) as [mx'|]; cbn [osc] in A; try contradiction; [|reflexivity].
    destruct (best _ (present (lastn len ls))) as [mn|], (best _ (present (lastn len (T ls)))) as [mn'|]; cbn [osc] in B; try contradiction; [|reflexivity].
    assert (D : sc k 2 (fsub mx mn) (fsub mx' mn')) by (apply (sc_sub k 1 1); [exact K|exact few2|exact A|exact B]).
    rewrite (sc_eq0 2 _ _ few2 D). destruct (fsub mx mn ==? fZ 0)%num; [reflexivity|]. f_equal. unfold stoch_val.
    refine (sc_ratio k (100 * 2) 2 _ _ _ _ K _ few2 (sc_mulz k 2 100 _ _ K _ _ _ _) D); try (unfold few; cbn; lia). apply (sc_sub k 1 1); [exact K|exact few2|exact V|exact B].
  Qed.
  Theorem C125_stoch len c zs : (1 <= len)%nat -> all_usable k (map (fun z => fst (fst z)) zs) -> all_usable k (map (fun z => snd (fst z)) zs) -> all_usable k (map snd zs) ->
    run_new (stoch_new len) stoch_step c (map scaled3 zs) = run_new (stoch_new len) stoch_step c zs.
  Proof.
    intros L U1 U2 U3. rewrite !(makes_run _ _ _ _ c _ (stoch_makes len L)) by exact I. f_equal. rewrite each_prefix_of_map. unfold each_prefix. apply map_ext_in. intros p Ip.
    apply in_prefixes in Ip. destruct Ip as (n & _ & ->). apply stoch2; rewrite <- firstn_map; apply firstn_rooms, usable_rooms; assumption.
  Qed.

  (** ** Indicators of bars *)
  (** The bar with its prices multiplied, its volume left alone. *)
  Definition split_bar (b : bar f64) : bar f64 :=
    mkBar (option_map (times2 k) (b_open b)) (option_map (times2 k) (b_high b)) (option_map (times2 k) (b_low b)) (option_map (times2 k) (b_close b)) (b_volume b).
  Definition usable_bar (b : bar f64) : Prop := all_usable k [b_open b; b_high b; b_low b; b_close b].
  Definition price_col (f : bar f64 -> option f64) : Prop := (forall b, f (split_bar b) = option_map (times2 k) (f b)) /\ forall b x, usable_bar b -> f b = Some x -> room k 1 x.
  Lemma cols2 : price_col b_open /\ price_col b_high /\ price_col b_low /\ price_col b_close.
  Proof. split; [|split; [|split]]; (split; [reflexivity|]); intros b x U E; apply usable_room, U; rewrite <- E; cbn [In]; tauto. Qed.
  Lemma osc_cur f p : price_col f -> Forall usable_bar p -> osc 1 (cur f p) (cur f (map split_bar p)).
  Proof.
    intros [C1 C2] U. unfold cur. rewrite newest_map. unfold newest. destruct (nth_error p (List.length p - 1)) as [b|] eqn:N; cbn [option_map obind]; [|exact I].
    rewrite C1. apply osc_of. intros x E. apply (C2 b x); [|exact E]. rewrite Forall_forall in U. exact (U b (nth_error_In _ _ N)).
  Qed.
  Lemma osc_prv f p : price_col f -> Forall usable_bar p -> osc 1 (prv f p) (prv f (map split_bar p)).
  Proof.
    intros [C1 C2] U. unfold prv. rewrite ago_map. unfold ago. destruct (1 <? List.length p)%nat; [|exact I].
    destruct (nth_error p (List.length p - 1 - 1)) as [b|] eqn:N; cbn [option_map obind]; [|exact I].
    rewrite C1. apply osc_of. intros x E. apply (C2 b x); [|exact E]. rewrite Forall_forall in U. exact (U b (nth_error_In _ _ N)).
  Qed.
  Lemma col_rooms f p : price_col f -> Forall usable_bar p -> rooms 1 (map f p) /\ map f (map split_bar p) = T (map f p).
  Proof.
    intros [C1 C2] U. split.
    - intros x I. apply in_map_iff in I. destruct I as (b & E & Ib). rewrite Forall_forall in U. exact (C2 b x (U b Ib) E).
    - rewrite !map_map. apply map_ext, C1.
  Qed.
  Lemma prefix_usable bs p : Forall usable_bar bs -> In p (prefixes bs) -> Forall usable_bar p.
  Proof. intros U Ip. apply in_prefixes in Ip. destruct Ip as (n & _ & ->). rewrite Forall_forall in *. intros b I. apply U, (firstn_In _ _ _ I). Qed.
  Lemma split_hl bs : Forall has_hl bs -> Forall has_hl (map split_bar bs).
  Proof. intros H. apply Forall_map. eapply Forall_impl; [|exact H]. intros b [H1 H2]. split; cbn [split_bar b_high b_low]; [destruct (b_high b)|destruct (b_low b)]; cbn; congruence. Qed.

  Variables (c c' : ctx f64) (bs : list (bar f64)).
  Hypothesis HB : fresh_over c bs.
  Hypothesis HB' : fresh_over c' (map split_bar bs).
  Hypothesis U : Forall usable_bar bs.
  Notation n := (List.length bs).

  Lemma tr2 na p : Forall usable_bar p -> osc 2 (tr_out na p) (tr_out na (map split_bar p)).
  Proof.
    intros Up. destruct cols2 as (_ & CH & CL & CC). pose proof (osc_cur _ p CH Up) as H. pose proof (osc_cur _ p CL Up) as L.
    pose proof (osc_prv _ p CH Up) as PH. pose proof (osc_prv _ p CL Up) as PL. pose proof (osc_prv _ p CC Up) as PC. unfold tr_out.
    destruct (cur b_high p) as [h|], (cur b_high (map split_bar p)) as [h'|]; cbn [osc] in H; try contradiction; [|exact I].
    destruct (cur b_low p) as [l|], (cur b_low (map split_bar p)) as [l'|]; cbn [osc] in L; try contradiction; [|exact I].
    assert (D : osc 2 (if na then Some (fsub h l) else None) (if na then Some (fsub h' l') else None)) by (destruct na; [|exact I]; apply (sc_sub k 1 1); [exact K|exact few2|exact H|exact L]).
    unfold true_range. destruct (prv b_high p) as [ph|], (prv b_high (map split_bar p)) as [ph'|]; cbn [osc] in PH; try contradiction; [|exact D].
    destruct (prv b_low p) as [pl|], (prv b_low (map split_bar p)) as [pl'|]; cbn [osc] in PL; try contradiction; [|exact D].
    destruct (prv b_close p) as [pc|], (prv b_close (map split_bar p)) as [pc'|]; cbn [osc] in PC; try contradiction; [|exact D].
    apply sc_max; [exact few2|apply sc_max; [exact few2| |]|].
    - apply (sc_sub k 1 1); [exact K|exact few2|exact H|exact L].
    - apply sc_abs; [exact K|exact few2|]. apply (sc_sub k 1 1); [exact K|exact few2|exact H|exact PC].
    - apply sc_abs; [exact K|exact few2|]. apply (sc_sub k 1 1); [exact K|exact few2|exact L|exact PC].
  Qed.
  Theorem C125_tr na : Forall has_hl bs ->
    exists os, run tr_step c na (ticks n) = Ok os /\ run tr_step c' na (ticks n) = Ok (T os).
  Proof.
    intros HL. rewrite (tr_run na c bs HB HL). eexists; split; [reflexivity|]. replace n with (List.length (map split_bar bs)) by apply map_length.
    rewrite (tr_run na c' _ HB' (split_hl _ HL)). f_equal. apply (prefixes2 2). intros p Ip. apply tr2. exact (prefix_usable _ _ U Ip).
  Qed.
  Theorem C125_donchian len : (1 <= len)%nat ->
    exists os, run_new (don_new len) don_step c (ticks n) = Ok os /\ run_new (don_new len) don_step c' (ticks n) = Ok (map scaled3 os).
  Proof.
    intros L. rewrite (don_run len c bs L HB). eexists; split; [reflexivity|]. replace n with (List.length (map split_bar bs)) by apply map_length.
    rewrite (don_run len c' _ L HB'). f_equal. rewrite each_prefix_of_map, each_prefix_map. unfold each_prefix. apply map_ext_in. intros p Ip.
    pose proof (prefix_usable _ _ U Ip) as Up. destruct cols2 as (_ & CH & CL & _). destruct (col_rooms _ p CH Up) as [R1 E1], (col_rooms _ p CL Up) as [R2 E2].
    unfold don_out. rewrite E1, E2. pose proof (highest2 1 len 0 _ few1 R1) as A. pose proof (lowest2 1 len 0 _ few1 R2) as B.
    set (x := highest_out len 0 (map b_high p)) in *. set (x' := highest_out len 0 (T (map b_high p))) in *. set (y := lowest_out len 0 (map b_low p)) in *. set (y' := lowest_out len 0 (T (map b_low p))) in *.
    clearbody x x' y y'. unfold scaled3. cbn [fst snd]. rewrite <- (osc_eq _ _ _ A), <- (osc_eq _ _ _ B). do 2 f_equal. unfold don_basis.
    destruct x as [x|], x' as [x'|]; cbn [osc] in A; try contradiction; [|reflexivity]. destruct y as [y|], y' as [y'|]; cbn [osc] in B; try contradiction; [|reflexivity].
    cbn [ps_add option_map]. f_equal. destruct (fnat_64 2 few2) as [F2 V2].
    apply (sc_divz k 2 2 (f64_ofZ 2) (fadd x y) (fadd x' y') K few2 F2 V2); [lia|]. apply (sc_add k 1 1); [exact K|exact few2|exact A|exact B].
  Qed.
  Theorem C125_balance_of_power : run bop_step c' tt (ticks n) = run bop_step c tt (ticks n).
  Proof.
    rewrite (bop_run c bs HB). replace n with (List.length (map split_bar bs)) by apply map_length. rewrite (bop_run c' _ HB'). f_equal.
    rewrite each_prefix_of_map. unfold each_prefix. apply map_ext_in. intros p Ip. pose proof (prefix_usable _ _ U Ip) as Up. destruct cols2 as (CO & CH & CL & CC).
    pose proof (osc_cur _ p CO Up) as HO. pose proof (osc_cur _ p CH Up) as HH. pose proof (osc_cur _ p CL Up) as HL. pose proof (osc_cur _ p CC Up) as HC. unfold bop_out, bop_value.
    destruct (cur b_close p) as [cl|], (cur b_close (map split_bar p)) as [cl'|]; cbn [osc] in HC; try contradiction; [|reflexivity].
    destruct (cur b_open p) as [op|], (cur b_open (map split_bar p)) as [op'|]; cbn [osc] in HO; try contradiction; [|reflexivity].
    destruct (cur b_high p) as [h|], (cur b_high (map split_bar p)) as [h'|]; cbn [osc] in HH; try contradiction; [|reflexivity].
    destruct (cur b_low p) as [l|], (cur b_low (map split_bar p)) as [l'|]; cbn [osc] in HL; try contradiction; [|reflexivity].
    assert (E : (h' ==? l')%num = (h ==? l)%num) by (exact (sc_eq _ _ _ _ _ _ _ K few1 few1 HH HL)).
    rewrite E. destruct (h ==? l)%num; [reflexivity|]. f_equal.
    refine (sc_ratio k 2 2 _ _ _ _ K few2 few2 _ _); (apply (sc_sub k 1 1); [exact K|exact few2|assumption|assumption]).
  Qed.
  Lemma lines2 {A B} (l : list A) (m : list B) : List.length l = List.length m -> map fst (combine l m) = l /\ map snd (combine l m) = m.
  Proof. revert m. induction l as [|x l IH]; intros [|y m] L; try discriminate L; [auto|]. cbn [combine map fst snd]. destruct (IH m) as [-> ->]; [cbn in L; lia|auto]. Qed.
  Theorem C125_williams len src src' vs : (1 <= len)%nat -> List.length vs = n -> all_usable k vs -> feeds c src vs -> feeds c' src' (T vs) ->
    run_new (wpr_new src' len) wpr_step c' (ticks n) = run_new (wpr_new src len) wpr_step c (ticks n).
  Proof.
    intros L LV UV S S'. set (zs := combine vs bs). destruct (lines2 vs bs LV) as [Z1 Z2]. fold zs in Z1, Z2.
    set (g := fun z : option f64 * bar f64 => (option_map (times2 k) (fst z), split_bar (snd z))).
    assert (G1 : map fst (map g zs) = T vs) by (rewrite <- Z1, !map_map; reflexivity). assert (G2 : map snd (map g zs) = map split_bar bs) by (rewrite <- Z2, !map_map; reflexivity).
    assert (LZ : List.length zs = n) by (rewrite <- Z2, map_length; reflexivity).
    rewrite <- Z1 in S. rewrite <- Z2 in HB. rewrite <- G1 in S'. rewrite <- G2 in HB'. rewrite <- LZ, (wpr_run len c src zs L S HB).
    replace (List.length zs) with (List.length (map g zs)) by apply map_length. rewrite (wpr_run len c' src' _ L S' HB'). f_equal.
    rewrite each_prefix_of_map. unfold each_prefix. apply map_ext_in. intros p Ip. apply in_prefixes in Ip. destruct Ip as (m & _ & ->). set (p := firstn (Datatypes.S m) zs).
    assert (Up : Forall usable_bar (map snd p)) by (subst p; rewrite <- firstn_map, Z2; apply Forall_forall; intros b I; rewrite Forall_forall in U; apply U, (firstn_In _ _ _ I)).
    assert (Rp : rooms 1 (map fst p)) by (subst p; rewrite <- firstn_map, Z1; apply firstn_rooms, usable_rooms, UV). clearbody p.
    destruct cols2 as (_ & CH & CL & _). destruct (col_rooms _ _ CH Up) as [R1 E1], (col_rooms _ _ CL Up) as [R2 E2].
    assert (W : forall q : list (option f64 * bar f64), wpr_out len q = wpr_value (cur fst q) (highest_out len 0 (map b_high (map snd q))) (lowest_out len 0 (map b_low (map snd q)))) by (intros q; unfold wpr_out; rewrite !map_map; reflexivity).
    assert (E0 : map snd (map g p) = map split_bar (map snd p)) by (rewrite !map_map; reflexivity).
    rewrite !W, E0, E1, E2.
    pose proof (highest2 1 len 0 _ few1 R1) as A. pose proof (lowest2 1 len 0 _ few1 R2) as B.
    assert (V : osc 1 (cur fst p) (cur fst (map g p))).
    { unfold cur. rewrite newest_map. unfold newest. destruct (nth_error p (List.length p - 1)) as [z|] eqn:N; cbn [option_map obind]; [|exact I]. apply osc_of. intros x E. apply Rp. rewrite <- E. apply in_map. exact (nth_error_In _ _ N). }
    unfold wpr_value. f_equal. apply (ratio_same 2 2); [exact few2|exact few2| |]; apply (osc_diff 1 1); assumption || exact few2.
  Qed.
  Theorem C125_cmo len src src' vs : (2 <= len)%nat -> all_usable k vs -> few (800 * List.length vs) -> feeds c src vs -> feeds c' src' (T vs) ->
    run_new (cmo_new src' len) cmo_step c' (ticks (List.length vs)) = run_new (cmo_new src len) cmo_step c (ticks (List.length vs)).
  Proof.
    intros L UV J S S'. rewrite (cmo_run len c src vs L S). replace (List.length vs) with (List.length (T vs)) by apply map_length. rewrite (cmo_run len c' src' _ L S'). f_equal.
    rewrite each_prefix_of_map. unfold each_prefix. apply map_ext_in. intros p Ip. pose proof (prefix_len _ _ Ip) as LP. assert (Rp : rooms 1 p) by (apply (prefix_rooms 1 vs); [apply usable_rooms, UV|exact Ip]).
    assert (M : forall q, In q (prefixes p) -> osc 2 (momentum q) (momentum (T q))).
    { intros q Iq. pose proof (prefix_rooms _ _ _ Rp Iq) as Rq. unfold momentum. apply (osc_diff 1 1); [exact few2|apply osc_newest, Rq|apply osc_ago, Rq]. }
    destruct (prefixes2 2 (fun q => cmo_up (momentum q)) (fun q => cmo_up (momentum q)) (option_map (times2 k)) p) as [A1 A2]; [intros q Iq; unfold cmo_up; apply osc_max; [exact few2|apply osc_0, few2|apply M, Iq]|].
    destruct (prefixes2 2 (fun q => cmo_down (momentum q)) (fun q => cmo_down (momentum q)) (option_map (times2 k)) p) as [B1 B2]; [intros q Iq; unfold cmo_down; apply osc_abs; [exact few2|]; apply osc_min; [exact few2|apply osc_0, few2|apply M, Iq]|].
    unfold cmo_out. rewrite A2, B2. assert (JJ : forall f : list (option f64) -> option f64, few (2 * 2 * List.length (each_prefix f p))) by (intros f; rewrite length_each_prefix; apply few_le with (2 := J); lia).
    pose proof (sum2 2 len _ (JJ _) A1) as A. pose proof (sum2 2 len _ (JJ _) B1) as B. rewrite length_each_prefix in A, B.
    set (u := sum_out len (each_prefix (fun q => cmo_up (momentum q)) p)) in *. set (u' := sum_out len (T (each_prefix (fun q => cmo_up (momentum q)) p))) in *.
    set (v := sum_out len (each_prefix (fun q => cmo_down (momentum q)) p)) in *. set (v' := sum_out len (T (each_prefix (fun q => cmo_down (momentum q)) p))) in *. clearbody u u' v v'.
    unfold cmo_value. destruct u as [u|], u' as [u'|]; cbn [osc] in A; try contradiction; [|reflexivity]. destruct v as [v|], v' as [v'|]; cbn [osc] in B; try contradiction; [|reflexivity].
    set (m := (2 * 2 * List.length p)%nat) in *. assert (Jm : few (100 * (m + m))) by (apply few_le with (2 := J); subst m; lia). assert (Jm1 : few (m + m)) by (apply few_le with (2 := Jm); lia). assert (Jm0 : few m) by (apply few_le with (2 := Jm1); lia).
    assert (E : (u' ==? fneg v')%num = (u ==? fneg v)%num) by (exact (sc_eq _ _ _ _ _ _ _ K Jm0 Jm0 A (sc_neg _ _ _ _ K Jm0 B))).
    rewrite E. destruct (u ==? fneg v)%num; [reflexivity|]. f_equal.
    refine (sc_ratio k (100 * (m + m)) (m + m) _ _ _ _ K Jm Jm1 (sc_mulz k (m + m) 100 _ _ K _ Jm _ _) _); try (unfold few; cbn; lia).
    - apply sc_sub; assumption.
    - apply sc_add; assumption.
  Qed.
  Theorem C125_ultimate l1 l2 l3 : (1 <= l1)%nat -> (1 <= l2)%nat -> (1 <= l3)%nat -> few (4 * n) ->
    run_new (uo_new l1 l2 l3) uo_step c' (ticks n) = run_new (uo_new l1 l2 l3) uo_step c (ticks n).
  Proof.
    intros L1 L2 L3 J. rewrite (uo_run l1 l2 l3 c bs L1 L2 L3 HB). replace n with (List.length (map split_bar bs)) by apply map_length. rewrite (uo_run l1 l2 l3 c' _ L1 L2 L3 HB'). f_equal.
    rewrite each_prefix_of_map. unfold each_prefix. apply map_ext_in. intros p Ip. pose proof (prefix_len _ _ Ip) as LP. pose proof (prefix_usable _ _ U Ip) as Up. destruct cols2 as (_ & CH & CL & CC).
    destruct (prefixes2 2 uo_bp_of uo_bp_of split_bar p) as [A1 A2].
    { intros q Iq. pose proof (prefix_usable _ _ Up Iq) as Uq. unfold uo_bp_of, uo_bp. apply (osc_diff 1 1); [exact few2|apply osc_cur; assumption|]. apply osc_min; [exact few1|apply osc_cur; assumption|apply osc_prv; assumption]. }
    destruct (prefixes2 2 uo_tr_of uo_tr_of split_bar p) as [B1 B2].
    { intros q Iq. pose proof (prefix_usable _ _ Up Iq) as Uq. unfold uo_tr_of, uo_tr. apply (osc_diff 1 1); [exact few2| |]; [apply osc_max|apply osc_min]; try exact few1; (apply osc_cur; assumption) || (apply osc_prv; assumption). }
    assert (E : forall l, uo_ratio l (map split_bar p) = uo_ratio l p).
    { intros l. unfold uo_ratio. rewrite A2, B2. assert (JJ : few (2 * 2 * List.length p)) by (apply few_le with (2 := J); lia).
      apply (ratio_same (2 * 2 * List.length p) (2 * 2 * List.length p)); [exact JJ|exact JJ| |].
      - rewrite <- (length_each_prefix uo_bp_of p). apply sum2; [rewrite length_each_prefix; exact JJ|exact A1].
      - rewrite <- (length_each_prefix uo_tr_of p). apply sum2; [rewrite length_each_prefix; exact JJ|exact B1]. }
    unfold uo_out. rewrite !E. reflexivity.
  Qed.
End Split.

(** ** C125: backtests *)
(** The market with every price multiplied by [2^k], volumes and times left alone. *)
Definition split_provider (k : Z) (d : provider f64) : provider f64 :=
  mkProvider (scaled k (p_open d)) (scaled k (p_high d)) (scaled k (p_low d)) (scaled k (p_close d)) (p_volume d) (p_time d) (p_start d) (p_end d).
Definition split_ctx (k : Z) (c : ctx f64) : ctx f64 := mkCtx (split_provider k (c_data c)) (c_first c) (c_last c) (c_bars c) (c_index c) (c_running c).
(** The trade at prices multiplied by [2^k], with its size and profit changed by [f] and [g]. *)
Definition split_trade (k : Z) (f g : f64 -> f64) (t : trade f64) : trade f64 :=
  mkTrade (t_dir t) (t_closed t) (t_entry_tick t) (option_map (times2 k) (t_entry_price t)) (t_exit_tick t) (option_map (times2 k) (t_exit_price t)) (option_map f (t_fill t)) (g (t_pnl t)).
(** All amounts multiplied by [2^k], the counts the same. *)
Definition split_metrics (k : Z) (m : smetrics f64) : smetrics f64 :=
  mkSMetrics (times2 k (sm_equity m)) (times2 k (sm_net m)) (times2 k (sm_open m)) (times2 k (sm_gross_profit m)) (times2 k (sm_gross_loss m))
    (sm_closed m) (sm_winning m) (sm_losing m) (times2 k (sm_long_net m)) (times2 k (sm_short_net m)).
(** The number divided by [2^k]. *)
Definition shares (k : Z) (x : f64) : f64 := Bldexp mode_NE x (- k).
(** A size that can be divided by [2^k]: finite, and zero or at least [2^(k-1021)]. *)
Definition divisible (k : Z) (x : f64) : Prop := is_finite x = true /\ (B2R x = 0 \/ bpow radix2 (k - 1021) <= Rabs (B2R x)).

Section SplitBacktest.
  Variable log10 : f64 -> f64.
  #[local] Instance N125b : Num f64 := IEEE log10.
  #[local] Instance O125b : OrdNum f64 := IEEEOrd log10.
  Variable k : Z.
  Hypothesis K : (0 <= k)%Z.
  Notation T := (scaled k).
  Notation t2 := (times2 k).

  Lemma t2_0 : t2 (fZ 0) = fZ 0.
  Proof. symmetry. exact (proj2 (sc_0 k 1 K few1)). Qed.
  Lemma quote2 v i : quote (T v) i = t2 (quote v i).
  Proof. unfold quote. rewrite nth_error_map. destruct (nth_error v i) as [[x|]|]; cbn [option_map]; [reflexivity|symmetry; exact t2_0..]. Qed.
  Lemma quote_room v i : all_usable k v -> room k 1 (quote v i).
  Proof. intros U. unfold quote. destruct (nth_error v i) as [[x|]|] eqn:E; [apply usable_room, U; exact (nth_error_In _ _ E)|exact (proj1 (sc_0 k 1 K few1))..]. Qed.
  Lemma fills2 cfg c : fills cfg (split_provider k c) = T (fills cfg c).
  Proof. unfold fills. destruct (sc_on_close cfg); reflexivity. Qed.
  Lemma total2 j l : few (j * List.length l) -> Forall (room k j) l -> sc k (j * List.length l) (total l) (total (map t2 l)).
  Proof.
    induction l as [|x l IH] using rev_ind; intros J H.
    - apply (sc_0 k _ K). unfold few; cbn; lia.
    - rewrite map_app. cbn [map]. rewrite !total_snoc. rewrite app_length in *. cbn [List.length] in *. apply Forall_app in H. destruct H as [H Hx]. inversion Hx as [|? ? Hx1 _]; subst.
      apply (sc_le k (j * List.length l + j)); [lia|]. apply sc_add; [exact K|apply few_le with (2 := J); lia|apply IH; [apply few_le with (2 := J); lia|exact H]|split; [exact Hx1|reflexivity]].
  Qed.
  Lemma filter2 j (f : f64 -> bool) l : (forall x, room k j x -> f (t2 x) = f x) -> Forall (room k j) l -> filter f (map t2 l) = map t2 (filter f l) /\ Forall (room k j) (filter f l).
  Proof.
    intros F. induction 1 as [|x l Hx H [IH1 IH2]]; cbn [map filter]; [split; [reflexivity|constructor]|]. rewrite F by exact Hx. destruct (f x); cbn [map]; rewrite IH1; split; try constructor; auto.
  Qed.
  Lemma won2 j x : few j -> room k j x -> won (t2 x) = won x.
  Proof. intros J H. unfold won. exact (sc_lt k j j _ _ _ _ K J J (sc_0 k j K J) (conj H eq_refl)). Qed.
  Lemma lost2 j x : few j -> room k j x -> lost (t2 x) = lost x.
  Proof.
    intros J H. unfold lost. f_equal; [f_equal; exact (won2 j x J H)|]. exact (sc_lt k j j _ _ _ _ K J J (conj H eq_refl) (sc_0 k j K J)).
  Qed.
  Lemma abs2 j l : few j -> Forall (room k j) l -> map fabs (map t2 l) = map t2 (map fabs l) /\ Forall (room k j) (map fabs l).
  Proof.
    intros J. induction 1 as [|x l Hx H [IH1 IH2]]; cbn [map]; [split; [reflexivity|constructor]|].
    destruct (sc_abs k j x (t2 x) K J (conj Hx eq_refl)) as [A B]. split; [rewrite IH1; f_equal; exact B|constructor; assumption].
  Qed.

  (** *** One share a trade *)
  Definition phi1 (p : position f64) : position f64 :=
    Pos (pos_dir p) (fst (pos_in p), t2 (snd (pos_in p))) (pos_size p) (option_map (fun o => (fst o, t2 (snd o))) (pos_out p)).
  Definition good1 (p : position f64) : Prop := room k 1 (snd (pos_in p)) /\ pos_size p = fZ 1 /\ forall o, pos_out p = Some o -> room k 1 (snd o).
  Lemma gain1 p x : good1 p -> room k 1 x -> sc k 2 (gain p x) (gain (phi1 p) (t2 x)).
  Proof.
    intros (E & S & _) X. unfold gain. cbn [phi1 pos_in pos_size pos_dir snd]. rewrite S.
    assert (D : sc k 2 (fsub x (snd (pos_in p))) (fsub (t2 x) (t2 (snd (pos_in p))))) by (apply (sc_sub k 1 1); [exact K|exact few2|split; [exact X|reflexivity]|split; [exact E|reflexivity]]).
    set (d := fsub x _) in *. set (d' := fsub (t2 x) _) in *. clearbody d d'.
    assert (M : forall y : f64, fmul y (fZ 1) = y) by (intros y; exact (f64_mul_1 y)). rewrite !M.
    destruct (pos_dir p); cbn [sign]; [rewrite !M; exact D|].
    assert (M' : forall y : f64, fmul y (fZ (-1)) = fneg y) by (intros y; exact (f64_mul_m1 y)). rewrite !M'. apply sc_neg; [exact K|exact few2|exact D].
  Qed.
  Lemma realised1 p : good1 p -> sc k 2 (realised p) (realised (phi1 p)).
  Proof.
    intros G. unfold realised. cbn [phi1 pos_out]. destruct (pos_out p) as [[t x]|] eqn:E; cbn [option_map fst snd]; [|apply (sc_0 k 2 K few2)].
    apply gain1; [exact G|]. destruct G as (_ & _ & G). exact (G _ E).
  Qed.
  Lemma closed1 p : pos_closed (phi1 p) = pos_closed p.
  Proof. unfold pos_closed. cbn [phi1 pos_out]. destruct (pos_out p); reflexivity. Qed.
  Lemma profits1 (f : position f64 -> bool) ps : (forall p, f (phi1 p) = f p) -> Forall good1 ps ->
    map realised (filter f (map phi1 ps)) = map t2 (map realised (filter f ps)) /\ Forall (room k 2) (map realised (filter f ps)).
  Proof.
    intros F. induction 1 as [|p ps Hp H [IH1 IH2]]; cbn [map filter]; [split; [reflexivity|constructor]|]. rewrite F. destruct (realised1 p Hp) as [A B].
    destruct (f p); cbn [map]; rewrite IH1; split; try constructor; auto. rewrite B. reflexivity.
  Qed.
  Lemma book1 cfg K' d i0 sigs : sc_with_equity cfg = false -> all_usable k (fills cfg d) ->
    pos_at (with_capital cfg K') (split_provider k d) i0 sigs = map phi1 (pos_at cfg d i0 sigs) /\ Forall good1 (pos_at cfg d i0 sigs).
  Proof.
    intros WE U. unfold pos_at.
    assert (O : orders (with_capital cfg K') (split_provider k d) i0 sigs = map (re_order t2 (fun x => x)) (orders cfg d i0 sigs)).
    { rewrite <- (map_option_id sigs) at 1. apply orders_sim; [reflexivity|]. intros j _. rewrite fills2. apply quote2. }
    rewrite O.
    destruct (book_sim cfg (with_capital cfg K') phi1 (re_order t2 (fun x => x)) good1 (fun o => room k 1 (snd (fst o)))) with (os := orders cfg d i0 sigs) as [B1 B2].
    - reflexivity.
    - exact closed1.
    - intros p o. reflexivity.
    - intros p [[t x] dr] _ _. reflexivity.
    - intros ps [[t x] dr] _ _. unfold enter, phi1, re_order. cbn [fst snd pos_dir pos_in pos_size pos_out option_map]. f_equal. unfold size_for. cbn [with_capital sc_with_equity]. rewrite WE. reflexivity.
    - intros ps [[t x] dr] _ H. split; [exact H|]. split; [unfold enter, size_for; rewrite WE; reflexivity|]. intros o E. discriminate E.
    - intros p [[t x] dr] (H1 & H2 & _) H. split; [exact H1|]. split; [exact H2|]. cbn [leave pos_out]. intros o E. injection E as <-. exact H.
    - unfold orders. apply Forall_forall. intros o Io. destruct (sc_on_close cfg) eqn:OC; apply in_flat_map in Io; destruct Io as (j & _ & Io); unfold order_at in Io;
        destruct (nth j sigs None); cbn in Io; try contradiction; destruct Io as [<-|[]]; cbn [fst snd]; apply quote_room; unfold fills in U; rewrite OC in U; exact U.
    - split; [symmetry; exact B1|exact B2].
  Qed.
  Lemma snoc_ne {A} (l : list A) x : l ++ [x] <> []. Proof. destruct l; discriminate. Qed.

  (** Trading one share at a time: with every price and the capital multiplied
      by [2^k], the same trades at the multiplied prices, every amount
      multiplied by [2^k], bit for bit. *)
  Theorem C125_backtest (cfg : sconfig f64) c sigs x s s' : sc_with_equity cfg = false -> usable k (sc_capital cfg) ->
    all_usable k (p_open (c_data c)) -> all_usable k (p_close (c_data c)) -> few (2 * List.length (s_trades s) + 3) ->
    after cfg c (sigs ++ [x]) s -> after (with_capital cfg (t2 (sc_capital cfg))) (split_ctx k c) (sigs ++ [x]) s' ->
    s_trades s' = map (split_trade k (fun f => f) t2) (s_trades s) /\ s_metrics s' = split_metrics k (s_metrics s).
  Proof.
    intros WE UC UO UL J A A'. set (cfg' := with_capital cfg (t2 (sc_capital cfg))) in *. set (xs := sigs ++ [x]) in *.
    pose proof (after_tracks _ _ _ _ A) as TR. pose proof (after_tracks _ _ _ _ A') as TR'. cbn [split_ctx c_data c_index] in TR'.
    assert (UF : all_usable k (fills cfg (c_data c))) by (unfold fills; destruct (sc_on_close cfg); assumption).
    destruct (book1 cfg (t2 (sc_capital cfg)) (c_data c) (c_index c) xs WE UF) as [B G]. fold cfg' in B.
    set (ps := pos_at cfg (c_data c) (c_index c) xs) in *. set (ps' := pos_at cfg' (split_provider k (c_data c)) (c_index c) xs) in *.
    assert (NE : xs <> []) by apply snoc_ne.
    assert (LT : List.length (s_trades s) = List.length ps) by (rewrite (tr_trades _ _ _ _ _ TR), map_length; reflexivity).
    split.
    - rewrite (tr_trades _ _ _ _ _ TR), (tr_trades _ _ _ _ _ TR'). fold ps ps'. rewrite B, !map_map. apply map_ext_in. intros p Ip. rewrite Forall_forall in G. specialize (G p Ip).
      unfold as_trade, split_trade. rewrite closed1. cbn [phi1 pos_dir pos_in pos_size pos_out fst snd t_dir t_closed t_entry_tick t_entry_price t_exit_tick t_exit_price t_fill t_pnl option_map].
      rewrite (proj2 (realised1 p G)). destruct (pos_out p) as [[]|]; reflexivity.
    - pose proof (tr_tally _ _ _ _ _ TR) as Y. pose proof (tr_tally _ _ _ _ _ TR') as Y'. fold ps in Y. fold ps' in Y'. rewrite B in Y'.
      destruct (profits1 pos_closed ps closed1 G) as [P1 P2]. fold (profits ps) in P1, P2. fold (profits (map phi1 ps)) in P1.
      assert (LP : (List.length (profits ps) <= List.length ps)%nat) by (unfold profits; rewrite map_length; apply filter_len_le || (clear; induction ps as [|p l IH]; cbn [filter List.length]; [lia|destruct (pos_closed p); cbn [List.length]; lia])).
      assert (FL : forall (f : f64 -> bool) l, (List.length (filter f l) <= List.length l)%nat) by (clear; intros f l; induction l as [|p l IH]; cbn [filter List.length]; [lia|destruct (f p); cbn [List.length]; lia]).
      assert (TT : forall l, (List.length l <= List.length ps)%nat -> Forall (room k 2) l -> sc k (2 * List.length ps) (total l) (total (map t2 l))).
      { intros l Ll Hl. apply (sc_le k (2 * List.length l)); [lia|]. apply total2; [apply few_le with (2 := J); lia|exact Hl]. }
      destruct (filter2 2 won (profits ps) (fun y => won2 2 y few2) P2) as [W1 W2]. destruct (filter2 2 lost (profits ps) (fun y => lost2 2 y few2) P2) as [L1 L2]. destruct (abs2 2 _ few2 L2) as [Q1 Q2].
      assert (SD : forall d, sc k (2 * List.length ps) (total (side d ps)) (total (side d (map phi1 ps)))).
      { intros d. destruct (profits1 (fun p => pos_closed p && dir_eqb (pos_dir p) d) ps) as [D1 D2]; [intros p; rewrite closed1; reflexivity|exact G|]. unfold side. rewrite D1. apply TT; [|exact D2].
        rewrite map_length. clear. induction ps as [|p l IH]; cbn [filter List.length]; [lia|]. destruct (pos_closed p && dir_eqb (pos_dir p) d); cbn [List.length]; lia. }
      assert (NT : sc k (2 * List.length ps) (sm_net (s_metrics s)) (sm_net (s_metrics s'))) by (rewrite (ta_net _ _ Y), (ta_net _ _ Y'), P1; apply TT; assumption).
      assert (OP : sc k 2 (sm_open (s_metrics s)) (sm_open (s_metrics s'))).
      { rewrite (tr_open _ _ _ _ _ TR NE), (tr_open _ _ _ _ _ TR' NE). fold ps ps'. rewrite B. cbn [split_provider p_close]. rewrite quote2. unfold open_gain. rewrite newest_map. destruct (newest ps) as [p|] eqn:N; cbn [option_map]; [|apply (sc_0 k 2 K few2)].
        rewrite closed1. destruct (pos_closed p); [apply (sc_0 k 2 K few2)|]. apply gain1; [|apply quote_room, UL]. rewrite Forall_forall in G. apply G. unfold newest in N. exact (nth_error_In _ _ N). }
      assert (EQ : forall cf (d : provider f64) st, tracks cf d (c_index c) xs st -> sm_equity (s_metrics st) = fadd (fadd (sc_capital cf) (sm_net (s_metrics st))) (sm_open (s_metrics st))).
      { intros cf d st H. rewrite (tr_equity _ _ _ _ _ H). destruct xs; [congruence|reflexivity]. }
      assert (EE : sc k (1 + 2 * List.length ps + 2) (sm_equity (s_metrics s)) (sm_equity (s_metrics s'))).
      { rewrite (EQ _ _ _ TR), (EQ _ _ _ TR'). cbn [cfg' with_capital sc_capital]. rewrite LT in J.
        apply sc_add; [exact K|apply few_le with (2 := J); lia| |exact OP]. apply sc_add; [exact K|apply few_le with (2 := J); lia|split; [apply usable_room, UC|reflexivity]|exact NT]. }
      destruct (s_metrics s) as [q1 q2 q3 q4 q5 q6 q7 q8 q9 q10], (s_metrics s') as [r1 r2 r3 r4 r5 r6 r7 r8 r9 r10]. destruct Y, Y'.
      cbn [sm_equity sm_net sm_open sm_gross_profit sm_gross_loss sm_closed sm_winning sm_losing sm_long_net sm_short_net] in *. unfold split_metrics.
      cbn [sm_equity sm_net sm_open sm_gross_profit sm_gross_loss sm_closed sm_winning sm_losing sm_long_net sm_short_net]. rewrite P1 in *. rewrite W1, L1 in *. rewrite Q1 in *. rewrite !map_length in *.
      assert (FW : (List.length (filter won (profits ps)) <= List.length ps)%nat) by (eapply Nat.le_trans; [apply FL|exact LP]).
      assert (FLo : (List.length (map fabs (filter lost (profits ps))) <= List.length ps)%nat) by (rewrite map_length; eapply Nat.le_trans; [apply FL|exact LP]).
      f_equal; [exact (proj2 EE)|exact (proj2 NT)|exact (proj2 OP)| | | | | | |]; subst; try reflexivity.
      + exact (proj2 (TT _ FW W2)).
      + exact (proj2 (TT _ FLo Q2)).
      + exact (proj2 (SD Long)).
      + exact (proj2 (SD Short)).
  Qed.

  (** *** Trades sized by equity *)
  Definition phi2 (p : position f64) : position f64 :=
    Pos (pos_dir p) (fst (pos_in p), t2 (snd (pos_in p))) (shares k (pos_size p)) (option_map (fun o => (fst o, t2 (snd o))) (pos_out p)).
  Definition good2 (p : position f64) : Prop := room k 1 (snd (pos_in p)) /\ forall o, pos_out p = Some o -> room k 1 (snd o).
  Lemma bpow_k : bpow radix2 (- k) * bpow radix2 k = 1.
  Proof. rewrite <- bpow_plus. replace (- k + k)%Z with 0%Z by lia. reflexivity. Qed.
  (** rounding after a division by [2^k] *)
  Lemma rn_down r : rn r = 0 \/ bpow radix2 (k - 1021) <= Rabs (rn r) -> rn (r * bpow radix2 (- k)) = rn r * bpow radix2 (- k).
  Proof.
    intros [E|B].
    - rewrite E, Rmult_0_l. assert (V1 : Valid_exp fexp64) by (change fexp64 with (FLT_exp (-1074) 53); auto with typeclass_instances).
      assert (L : Rabs (rn (r * bpow radix2 (- k))) <= Rabs (rn r)).
      { change rn with (round radix2 (FLT_exp (-1074) 53) ZnearestE). rewrite <- !round_NE_abs by auto with typeclass_instances. apply round_le; [auto with typeclass_instances..|].
        rewrite Rabs_mult, (Rabs_pos_eq (bpow radix2 (- k))) by apply bpow_ge_0. assert (bpow radix2 (- k) <= 1) by (change 1 with (bpow radix2 0); apply bpow_le; lia). pose proof (Rabs_pos r). pose proof (bpow_ge_0 radix2 (- k)). nra. }
      rewrite E, Rabs_R0 in L. apply Rabs_eq_R0. pose proof (Rabs_pos (rn (r * bpow radix2 (- k)))). lra.
    - assert (L : bpow radix2 (k - 1022) <= Rabs r).
      { apply Rnot_lt_le. intros Q. assert (X : Rabs (rn r) <= bpow radix2 (k - 1022)).
        { apply abs_round_le_generic; [change fexp64 with (FLT_exp (-1074) 53); auto with typeclass_instances|apply valid_rnd_round_mode| |lra]. change fexp64 with (FLT_exp (-1074) 53). apply generic_format_bpow. unfold FLT_exp. lia. }
        assert (bpow radix2 (k - 1022) < bpow radix2 (k - 1021)) by (apply bpow_lt; lia). lra. }
      assert (N : bpow radix2 (-1022) <= Rabs (r * bpow radix2 (- k))).
      { rewrite Rabs_mult, (Rabs_pos_eq (bpow radix2 (- k))) by apply bpow_ge_0. replace (bpow radix2 (-1022)) with (bpow radix2 (k - 1022) * bpow radix2 (- k)) by (rewrite <- bpow_plus; f_equal; lia).
        apply Rmult_le_compat_r; [apply bpow_ge_0|exact L]. }
      pose proof (rn_scale k _ K (or_introl N)) as S. rewrite Rmult_assoc, bpow_k, Rmult_1_r in S. rewrite S, Rmult_assoc, (Rmult_comm (bpow radix2 k)), bpow_k. ring.
  Qed.
  Lemma shares_correct x : divisible k x -> is_finite (shares k x) = true /\ B2R (shares k x) = B2R x * bpow radix2 (- k) /\ Bsign (shares k x) = Bsign x.
  Proof.
    intros [F D]. pose proof (Bldexp_correct 53 1024 _ _ mode_NE x (- k)) as C.
    assert (G : rn (B2R x) = B2R x) by (apply round_generic; [apply valid_rnd_round_mode|apply (generic_format_B2R 53 1024)]).
    rewrite rn_down in C by (rewrite G; exact D). rewrite G in C. rewrite Rlt_bool_true in C.
    - destruct C as (C1 & C2 & C3). exact (conj (eq_trans C2 F) (conj C1 C3)).
    - apply Rle_lt_trans with (Rabs (B2R x)); [|apply (abs_B2R_lt_emax 53 1024)]. rewrite Rabs_mult, (Rabs_pos_eq (bpow radix2 (- k))) by apply bpow_ge_0.
      assert (bpow radix2 (- k) <= 1) by (change 1 with (bpow radix2 0); apply bpow_le; lia). pose proof (Rabs_pos (B2R x)). pose proof (bpow_ge_0 radix2 (- k)). nra.
  Qed.
  Lemma not_nan (x : f64) : is_finite x = true -> is_nan x = false. Proof. destruct x; intros H; try discriminate H; reflexivity. Qed.
  Lemma buys (e x : f64) : room k 1 x -> 0 < B2R x -> divisible k (Bdiv mode_NE e x) -> Bdiv mode_NE e (t2 x) = shares k (Bdiv mode_NE e x).
  Proof.
    intros X P D. pose proof (shares_correct _ D) as (S1 & S2 & S3). destruct D as [F D]. destruct (times2_correct k 1 x K few1 X) as (Fx' & Vx & Sx). destruct X as (Fx & _ & _).
    assert (Fe : is_finite e = true) by (destruct e as [|se| |]; try reflexivity; exfalso; destruct x as [sx| | |sx mx ex Hx]; try discriminate Fx; try discriminate F; try (cbn [B2R] in P; lra)).
    assert (X0 : B2R x <> 0) by lra. pose proof (bpow_gt_0 radix2 k) as PK. assert (X0' : B2R (t2 x) <> 0) by (rewrite Vx; nra).
    pose proof (Bdiv_correct 53 1024 _ _ mode_NE e x X0) as C. pose proof (Bdiv_correct 53 1024 _ _ mode_NE e (t2 x) X0') as C'.
    destruct (Rlt_bool (Rabs (rn (B2R e / B2R x))) (bpow radix2 1024)) eqn:RL.
    2:{ exfalso. assert (Q : is_finite_SF (B2SF (Bdiv mode_NE e x)) = true) by (rewrite is_finite_SF_B2SF; exact F). rewrite C in Q. revert Q. unfold binary_overflow, overflow_to_inf. discriminate. }
    destruct C as (C1 & C2 & C3). specialize (C3 (not_nan _ F)). rewrite C1 in D, S2.
    assert (E : B2R e / B2R (t2 x) = B2R e / B2R x * bpow radix2 (- k)) by (rewrite Vx, bpow_opp; field; split; lra).
    rewrite E, rn_down in C' by exact D. rewrite Rlt_bool_true in C' by (rewrite <- S2; apply (abs_B2R_lt_emax 53 1024)). destruct C' as (D1 & D2 & D3).
    assert (F2 : is_finite (Bdiv mode_NE e (t2 x)) = true) by (exact (eq_trans D2 Fe)). specialize (D3 (not_nan _ F2)). rewrite Sx in D3.
    apply times2_same; [exact F2|exact S1|exact (eq_trans D1 (eq_sym S2))|exact (eq_trans D3 (eq_sym (eq_trans S3 C3)))].
  Qed.
  (** twice the price change on half the shares *)
  Lemma stake (d d' s : f64) : sc k 2 d d' -> divisible k s -> Bmult mode_NE d' (shares k s) = Bmult mode_NE d s.
  Proof.
    intros D S. destruct (sc_facts _ _ _ _ K few2 D) as ([Fd Fd'] & Vd & Sd & _ & _). destruct (shares_correct s S) as (S1 & S2 & S3). destruct S as [Fs _].
    pose proof (Bmult_correct 53 1024 _ _ mode_NE d s) as A. pose proof (Bmult_correct 53 1024 _ _ mode_NE d' (shares k s)) as B. rewrite Vd, S2 in B.
    replace (B2R d * bpow radix2 k * (B2R s * bpow radix2 (- k))) with (B2R d * B2R s) in B by (rewrite <- (Rmult_1_r (B2R d * B2R s)), <- bpow_k; ring).
    rewrite Sd, S3 in B. destruct (Rlt_bool (Rabs (rn (B2R d * B2R s))) (bpow radix2 1024)).
    - destruct A as (A1 & A2 & A3), B as (B1 & B2 & B3). rewrite Fd, Fs in A2. rewrite Fd', S1 in B2. cbn [andb] in A2, B2.
      apply times2_same; [exact B2|exact A2|exact (eq_trans B1 (eq_sym A1))|exact (eq_trans (B3 (not_nan _ B2)) (eq_sym (A3 (not_nan _ A2))))].
    - apply B2SF_inj. exact (eq_trans B (eq_sym A)).
  Qed.
  Lemma gain2 p x : good2 p -> divisible k (pos_size p) -> room k 1 x -> gain (phi2 p) (t2 x) = gain p x.
  Proof.
    intros (E & _) S X. unfold gain. cbn [phi2 pos_in pos_size pos_dir snd]. f_equal. apply stake; [|exact S].
    apply (sc_sub k 1 1); [exact K|exact few2|split; [exact X|reflexivity]|split; [exact E|reflexivity]].
  Qed.
  Lemma realised2 p : good2 p -> divisible k (pos_size p) -> realised (phi2 p) = realised p.
  Proof.
    intros G S. unfold realised. cbn [phi2 pos_out]. destruct (pos_out p) as [[t x]|] eqn:E; cbn [option_map fst snd]; [|reflexivity].
    apply gain2; [exact G|exact S|]. destruct G as (_ & G). exact (G _ E).
  Qed.
  Lemma closed2 p : pos_closed (phi2 p) = pos_closed p.
  Proof. unfold pos_closed. cbn [phi2 pos_out]. destruct (pos_out p); reflexivity. Qed.
  Lemma profits2 (f : position f64 -> bool) ps : (forall p, f (phi2 p) = f p) -> Forall good2 ps -> Forall (fun p => divisible k (pos_size p)) ps ->
    map realised (filter f (map phi2 ps)) = map realised (filter f ps).
  Proof.
    intros F. induction 1 as [|p ps Hp H IH]; intros S; [reflexivity|]. inversion S as [|? ? Sp Ss]; subst. cbn [map filter]. rewrite F. destruct (f p); cbn [map]; rewrite IH by exact Ss; [|reflexivity].
    f_equal. apply realised2; assumption.
  Qed.
  Notation fine := (Forall (fun p : position f64 => divisible k (pos_size p))).
  Lemma fine_place cfg ps o : fine (place cfg ps o) -> fine ps.
  Proof.
    unfold place. destruct (newest ps) as [p|] eqn:N; [|intros H; apply Forall_app in H; apply H].
    destruct (pos_closed p); [intros H; apply Forall_app in H; apply H|]. destruct (dir_eqb (pos_dir p) (snd o)); [auto|].
    assert (Q : fine (removelast ps ++ [leave p o]) -> fine ps).
    { intros H. apply Forall_app in H. destruct H as [H1 H2]. inversion H2 as [|? ? H3 _]; subst. rewrite (newest_split _ _ N). apply Forall_app. split; [exact H1|]. constructor; [|constructor]. destruct o as [[t y] dr]. exact H3. }
    destruct (sc_continuous cfg); [|exact Q]. intros H. apply Forall_app in H. apply Q, H.
  Qed.
  Lemma enter2 cfg ps o : sc_with_equity cfg = true -> Forall good2 ps -> fine ps -> room k 1 (snd (fst o)) -> divisible k (pos_size (enter cfg ps o)) ->
    phi2 (enter cfg ps o) = enter cfg (map phi2 ps) (re_order t2 (fun x => x) o) /\ good2 (enter cfg ps o).
  Proof.
    intros WE G S X D. destruct o as [[t x] dr]. cbn [fst snd] in X. split; [|split; [exact X|intros o E; discriminate E]].
    assert (PR : profits (map phi2 ps) = profits ps) by (apply profits2; [exact closed2|exact G|exact S]). set (ps2 := map phi2 ps) in *. clearbody ps2.
    unfold enter, phi2, re_order in *. cbn [fst snd pos_dir pos_in pos_size pos_out option_map] in *. f_equal. unfold size_for in *. rewrite WE in *. rewrite PR.
    set (e := fadd (fadd (sc_capital cfg) (total (profits ps))) (fZ 0)) in *. clearbody e. cbv zeta in *.
    assert (LE : (t2 x <=? fZ 0)%num = (x <=? fZ 0)%num).
    { apply (sc_leb log10 k K 1 1); [exact few1|exact few1|split; [exact X|reflexivity]|apply (sc_0 k 1 K few1)]. }
    rewrite LE. destruct ((e <=? fZ 0)%num || (x <=? fZ 0)%num) eqn:Q.
    - reflexivity.
    - apply Bool.orb_false_iff in Q. destruct Q as [_ Q]. symmetry. apply buys; [exact X| |exact D].
      change (Bleb x (f64_ofZ 0) = false) in Q. destruct X as (Fx & _ & _). rewrite Bleb_correct in Q by (exact Fx || reflexivity). change (B2R (f64_ofZ 0)) with 0 in Q. destruct (Rle_bool_spec (B2R x) 0); [discriminate Q|assumption].
  Qed.
  Lemma place2 cfg ps o : sc_with_equity cfg = true -> Forall good2 ps -> room k 1 (snd (fst o)) -> fine (place cfg ps o) ->
    map phi2 (place cfg ps o) = place cfg (map phi2 ps) (re_order t2 (fun x => x) o) /\ Forall good2 (place cfg ps o).
  Proof.
    intros WE G X S. pose proof (fine_place _ _ _ S) as S0. unfold place in *. rewrite newest_map. destruct (newest ps) as [p|] eqn:N; cbn [option_map].
    2:{ apply Forall_app in S. destruct S as [_ S]. inversion S as [|? ? S1 _]; subst. destruct (enter2 cfg ps o WE G S0 X S1) as [E1 E2]. rewrite map_app. cbn [map]. rewrite E1. split; [reflexivity|apply Forall_app; auto]. }
    rewrite closed2. destruct (pos_closed p).
    { apply Forall_app in S. destruct S as [_ S]. inversion S as [|? ? S1 _]; subst. destruct (enter2 cfg ps o WE G S0 X S1) as [E1 E2]. rewrite map_app. cbn [map]. rewrite E1. split; [reflexivity|apply Forall_app; auto]. }
    cbn [phi2 pos_dir re_order snd]. destruct (dir_eqb (pos_dir p) (snd o)); [auto|].
    assert (LV : map phi2 (removelast ps ++ [leave p o]) = removelast (map phi2 ps) ++ [leave (phi2 p) (re_order t2 (fun x => x) o)]).
    { rewrite map_app, removelast_map. cbn [map]. destruct o as [[t y] dr]. reflexivity. }
    assert (GL : Forall good2 (removelast ps ++ [leave p o])).
    { rewrite (newest_split _ _ N) in G. apply Forall_app in G. destruct G as [G1 G2]. apply Forall_app. split; [exact G1|]. constructor; [|constructor]. inversion G2 as [|? ? [H1 _] _]; subst.
      destruct o as [[t y] dr]. split; [exact H1|]. cbn [leave pos_out]. intros q E. injection E as <-. exact X. }
    destruct (sc_continuous cfg); [|split; [exact LV|exact GL]].
    apply Forall_app in S. destruct S as [S1 S2]. inversion S2 as [|? ? S3 _]; subst. destruct (enter2 cfg _ o WE GL S1 X S3) as [E1 E2].
    rewrite map_app. cbn [map]. rewrite E1, LV. split; [reflexivity|]. apply Forall_app. auto.
  Qed.
  Lemma book2 cfg os : sc_with_equity cfg = true -> Forall (fun o : nat * f64 * direction => room k 1 (snd (fst o))) os -> fine (book cfg os) ->
    book cfg (map (re_order t2 (fun x => x)) os) = map phi2 (book cfg os) /\ Forall good2 (book cfg os).
  Proof.
    intros WE. induction os as [|o os IH] using rev_ind; intros X S; [split; [reflexivity|constructor]|].
    apply Forall_app in X. destruct X as [X1 X2]. inversion X2 as [|? ? X3 _]; subst. unfold book in *. rewrite !fold_left_app in *. cbn [fold_left] in *.
    destruct (IH X1 (fine_place _ _ _ S)) as [E G]. rewrite map_app, fold_left_app. cbn [map fold_left]. destruct (place2 cfg _ o WE G X3 S) as [P1 P2]. split; [refine (eq_trans (f_equal (fun l => place cfg l _) E) (eq_sym P1))|exact P2].
  Qed.

  (** Trades sized by equity: with every price multiplied by [2^k] (and the
      same capital), [2^k] times fewer shares, and every profit, every total,
      the equity and every count the same, bit for bit. *)
  Theorem C125_backtest_equity (cfg : sconfig f64) c sigs x s s' : sc_with_equity cfg = true ->
    all_usable k (p_open (c_data c)) -> all_usable k (p_close (c_data c)) -> (forall t f, In t (s_trades s) -> t_fill t = Some f -> divisible k f) ->
    after cfg c (sigs ++ [x]) s -> after cfg (split_ctx k c) (sigs ++ [x]) s' ->
    s_trades s' = map (split_trade k (shares k) (fun g => g)) (s_trades s) /\ s_metrics s' = s_metrics s.
  Proof.
    intros WE UO UL HF A A'. set (xs := sigs ++ [x]) in *.
    pose proof (after_tracks _ _ _ _ A) as TR. pose proof (after_tracks _ _ _ _ A') as TR'. cbn [split_ctx c_data c_index] in TR'.
    assert (UF : all_usable k (fills cfg (c_data c))) by (unfold fills; destruct (sc_on_close cfg); assumption).
    assert (FN : fine (pos_at cfg (c_data c) (c_index c) xs)).
    { apply Forall_forall. intros p Ip. apply (HF (as_trade p) (pos_size p)); [|reflexivity]. rewrite (tr_trades _ _ _ _ _ TR). apply in_map, Ip. }
    assert (O : orders cfg (split_provider k (c_data c)) (c_index c) xs = map (re_order t2 (fun y => y)) (orders cfg (c_data c) (c_index c) xs)).
    { rewrite <- (map_option_id xs) at 1. apply orders_sim; [reflexivity|]. intros j _. rewrite fills2. apply quote2. }
    destruct (book2 cfg (orders cfg (c_data c) (c_index c) xs) WE) as [B G]; [|exact FN|].
    { unfold orders. apply Forall_forall. intros o Io. destruct (sc_on_close cfg) eqn:OC; apply in_flat_map in Io; destruct Io as (j & _ & Io); unfold order_at in Io;
        destruct (nth j xs None); cbn in Io; try contradiction; destruct Io as [<-|[]]; cbn [fst snd]; apply quote_room; assumption. }
    rewrite <- O in B. fold (pos_at cfg (split_provider k (c_data c)) (c_index c) xs) in B. fold (pos_at cfg (c_data c) (c_index c) xs) in B, G.
    set (ps := pos_at cfg (c_data c) (c_index c) xs) in *. set (ps' := pos_at cfg (split_provider k (c_data c)) (c_index c) xs) in *.
    assert (NE : xs <> []) by apply snoc_ne. split.
    - rewrite (tr_trades _ _ _ _ _ TR), (tr_trades _ _ _ _ _ TR'). fold ps ps'. rewrite B, !map_map. apply map_ext_in. intros p Ip. rewrite Forall_forall in G, FN. specialize (G p Ip). specialize (FN p Ip).
      unfold as_trade, split_trade. rewrite closed2, (realised2 p G FN). cbn [phi2 pos_dir pos_in pos_size pos_out fst snd t_dir t_closed t_entry_tick t_entry_price t_exit_tick t_exit_price t_fill t_pnl option_map].
      destruct (pos_out p) as [[]|]; reflexivity.
    - pose proof (tr_tally _ _ _ _ _ TR) as Y. pose proof (tr_tally _ _ _ _ _ TR') as Y'. fold ps in Y. fold ps' in Y'. rewrite B in Y'.
      assert (P : profits (map phi2 ps) = profits ps) by (apply profits2; [exact closed2|exact G|exact FN]).
      assert (SD : forall d, side d (map phi2 ps) = side d ps) by (intros d; apply profits2; [intros p; rewrite closed2; reflexivity|exact G|exact FN]).
      assert (OP : sm_open (s_metrics s') = sm_open (s_metrics s)).
      { rewrite (tr_open _ _ _ _ _ TR NE), (tr_open _ _ _ _ _ TR' NE). fold ps ps'. rewrite B. cbn [split_provider p_close]. rewrite quote2. unfold open_gain. rewrite newest_map. destruct (newest ps) as [p|] eqn:N; cbn [option_map]; [|reflexivity].
        rewrite closed2. destruct (pos_closed p); [reflexivity|]. unfold newest in N. apply nth_error_In in N. rewrite Forall_forall in G, FN. apply gain2; [apply G, N|apply FN, N|apply quote_room, UL]. }
      assert (EQ : forall (d : provider f64) st, tracks cfg d (c_index c) xs st -> sm_equity (s_metrics st) = fadd (fadd (sc_capital cfg) (sm_net (s_metrics st))) (sm_open (s_metrics st))).
      { intros d st H. rewrite (tr_equity _ _ _ _ _ H). destruct xs; [congruence|reflexivity]. }
      pose proof (EQ _ _ TR) as E1. pose proof (EQ _ _ TR') as E2. assert (NT : sm_net (s_metrics s') = sm_net (s_metrics s)) by (rewrite (ta_net _ _ Y), (ta_net _ _ Y'), P; reflexivity).
      rewrite OP, NT, <- E1 in E2. destruct Y, Y'. rewrite P in *. rewrite !SD in *.
      destruct (s_metrics s) as [q1 q2 q3 q4 q5 q6 q7 q8 q9 q10], (s_metrics s') as [r1 r2 r3 r4 r5 r6 r7 r8 r9 r10].
      cbn [sm_equity sm_net sm_open sm_gross_profit sm_gross_loss sm_closed sm_winning sm_losing sm_long_net sm_short_net] in *. congruence.
  Qed.
End SplitBacktest.

(** ** Concrete cases: decimal prices around 10.50, an 8-for-1 split. *)
Lemma one_test (x : f64) : is_finite x = true -> Bleb (f64_ofZ 1) (Babs x) = true -> 1 <= Rabs (B2R x).
Proof.
  intros F B. destruct (f64_ofZ_correct 1) as [V G]; [cbn; lia|]. apply le_test in B; [|exact G|rewrite is_finite_Babs; exact F]. rewrite V, B2R_Babs in B. exact B.
Qed.
Lemma usable_test (x : f64) : is_finite x && Bleb (f64_ofZ 1) (Babs x) && Bleb (Babs x) (f64_ofZ (2 ^ 40)) = true -> usable 3 x.
Proof.
  intros H. apply andb_prop in H. destruct H as [H B]. apply andb_prop in H. destruct H as [F A]. apply (one_test x F) in A. destruct (f64_ofZ_correct (2 ^ 40)) as [V G]; [cbn; lia|].
  apply le_test in B; [|rewrite is_finite_Babs; exact F|exact G]. rewrite V, B2R_Babs in B. split; [exact F|]. split.
  - right. apply Rle_trans with 1; [|exact A]. change 1 with (bpow radix2 0). apply bpow_le. lia.
  - change (IZR (2 ^ 40)) with (bpow radix2 40) in B. apply Rle_trans with (bpow radix2 40 * bpow radix2 3); [apply Rmult_le_compat_r; [apply bpow_ge_0|exact B]|]. rewrite <- bpow_plus. apply bpow_le. lia.
Qed.
Lemma divisible_test (x : f64) : is_finite x && Bleb (f64_ofZ 1) (Babs x) = true -> divisible 3 x.
Proof.
  intros H. apply andb_prop in H. destruct H as [F A]. apply (one_test x F) in A. split; [exact F|]. right. apply Rle_trans with 1; [|exact A]. change 1 with (bpow radix2 0). apply bpow_le. lia.
Qed.
Definition bars125 : list (bar f64) := [bar123 1050 1110 1000 1070; bar123 1070 1130 1030 1100; bar123 1100 1100 910 950; bar123 940 990 905 985].
Definition ctx125 : ctx f64 :=
  mkCtx (mkProvider (map b_open bars125) (map b_high bars125) (map b_low bars125) (map b_close bars125) (map b_volume bars125) (repeat None 4) 0 3) 0 3 4 0 false.
Lemma all_usable_test xs : forallb (fun o : option f64 => match o with Some x => is_finite x && Bleb (f64_ofZ 1) (Babs x) && Bleb (Babs x) (f64_ofZ (2 ^ 40)) | None => true end) xs = true -> all_usable 3 xs.
Proof. intros H x I. rewrite forallb_forall in H. apply usable_test, (H _ I). Qed.
Example C125_ex : Forall (usable_bar 3) bars125 /\ Forall has_hl bars125 /\ fresh_over ctx125 bars125 /\ fresh_over (split_ctx 3 ctx125) (map (split_bar 3) bars125) /\
  all_usable 3 (map b_close bars125) /\ feeds ctx125 (src_box SClose) (map b_close bars125) /\ feeds (split_ctx 3 ctx125) (src_box SClose) (scaled 3 (map b_close bars125)).
Proof.
  split; [|split; [|split; [|split; [|split; [|split]]]]]; try reflexivity.
  - repeat apply Forall_cons; [..|apply Forall_nil]; apply all_usable_test; vm_compute; reflexivity.
  - unfold bars125. repeat (constructor; [split; discriminate|]). constructor.
  - split; [repeat split|reflexivity].
  - split; [repeat split|reflexivity].
  - apply all_usable_test. vm_compute. reflexivity.
Qed.
Definition sig125 : list (option direction) := [Some Long; Some Short; None].
Definition cfg125 (eq : bool) : sconfig f64 := mkSConfig false true (f64_ofZ 1000) eq.
Lemma ctx125_priced : priced ctx125 4.
Proof. intros m Hm. do 4 (destruct m as [|m]; [split; eexists; reflexivity|]). lia. Qed.
Lemma split125_priced : priced (split_ctx 3 ctx125) 4.
Proof. intros m Hm. do 4 (destruct m as [|m]; [split; eexists; reflexivity|]). lia. Qed.
Section SplitExamples.
  Variable log10 : f64 -> f64.
  #[local] Instance N125e : Num f64 := IEEE log10.
  #[local] Instance O125e : OrdNum f64 := IEEEOrd log10.
  Example C125_backtest_ex : usable 3 (sc_capital (cfg125 false)) /\ all_usable 3 (p_open (c_data ctx125)) /\ all_usable 3 (p_close (c_data ctx125)) /\
    (exists s, after (cfg125 false) ctx125 (sig125 ++ [None]) s /\ List.length (s_trades s) = 2%nat) /\
    (exists s, after (with_capital (cfg125 false) (times2 3 (f64_ofZ 1000))) (split_ctx 3 ctx125) (sig125 ++ [None]) s).
  Proof.
    split; [apply usable_test; vm_compute; reflexivity|]. split; [apply all_usable_test; vm_compute; reflexivity|]. split; [apply all_usable_test; vm_compute; reflexivity|]. split.
    - destruct (C28_runs (cfg125 false) ctx125 (sig125 ++ [None]) ctx125_priced) as (s & A). exists s. split; [exact A|]. rewrite (tr_trades _ _ _ _ _ (after_tracks _ _ _ _ A)), map_length. vm_compute. reflexivity.
    - apply C28_runs. exact split125_priced.
  Qed.
  Example C125_backtest_equity_ex : exists s s', after (cfg125 true) ctx125 (sig125 ++ [None]) s /\ after (cfg125 true) (split_ctx 3 ctx125) (sig125 ++ [None]) s' /\
    List.length (s_trades s) = 2%nat /\ forall t f, In t (s_trades s) -> t_fill t = Some f -> divisible 3 f.
  Proof.
    destruct (C28_runs (cfg125 true) ctx125 (sig125 ++ [None]) ctx125_priced) as (s & A). destruct (C28_runs (cfg125 true) (split_ctx 3 ctx125) (sig125 ++ [None]) split125_priced) as (s' & A').
    exists s, s'. split; [exact A|]. split; [exact A'|]. rewrite (tr_trades _ _ _ _ _ (after_tracks _ _ _ _ A)). split; [rewrite map_length; vm_compute; reflexivity|].
    intros t f I E. assert (X : forallb (fun t : trade f64 => match t_fill t with Some f => is_finite f && Bleb (f64_ofZ 1) (Babs f) | None => true end) (map as_trade (pos_at (cfg125 true) (c_data ctx125) (c_index ctx125) (sig125 ++ [None]))) = true) by (vm_compute; reflexivity).
    rewrite forallb_forall in X. specialize (X t I). rewrite E in X. apply divisible_test, X.
  Qed.
End SplitExamples.
(** Any other factor changes results: quoting 10.50 and 10.55 ten times higher changes the rate of change. *)
Example C125_not_ten : match run_new (roc_new 1) roc_step ctx_bare [Some (d123 1050); Some (d123 1055)], run_new (roc_new 1) roc_step ctx_bare [Some (fmul (f64_ofZ 10) (d123 1050)); Some (fmul (f64_ofZ 10) (d123 1055))] with
  | Ok [None; Some x], Ok [None; Some y] => Beqb x y | _, _ => true end = false.
Proof. vm_compute. reflexivity. Qed.
