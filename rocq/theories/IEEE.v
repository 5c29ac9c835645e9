(** * IEEE: the arithmetic instance of the Rust [f64].

    IEEE-754 binary64 with rounding to nearest, ties to even, as formalised by
    Flocq, with a single NaN (payload and sign of NaN are not modelled; no
    operation of the modelled code observes them).  [log10] is not an IEEE
    basic operation and the code uses it only in the choppiness index: the
    instance takes it as a parameter, and every theorem about this instance
    holds for every choice. *)
From Flocq Require Import Core IEEE754.BinarySingleNaN.
From Verif Require Export Exact.
Local Open Scope R_scope.

Definition f64 : Type := binary_float 53 1024.
#[global] Instance f64_prec_gt_0 : Prec_gt_0 53 := eq_refl.
#[global] Instance f64_prec_lt_emax : Prec_lt_emax 53 1024 := eq_refl.

Definition f64_ofZ (z : Z) : f64 := binary_normalize 53 1024 _ _ mode_NE z 0 false.

Definition IEEE (log10 : f64 -> f64) : Num f64 := {|
  fadd := Bplus mode_NE; fsub := Bminus mode_NE; fmul := Bmult mode_NE; fdiv := Bdiv mode_NE;
  fneg := Bopp; fabs := Babs; fsqrt := Bsqrt mode_NE; flog10 := log10;
  fltb := Bltb; fleb := Bleb; feqb := Beqb; fisnan := is_nan; fofZ := f64_ofZ |}.

(** The value of a float as an extended real. *)
Definition to_xr (x : f64) : xr :=
  match x with
  | B754_nan => XNaN
  | B754_infinity false => PInf
  | B754_infinity true => NInf
  | _ => Fin (B2R x)
  end.

Lemma to_xr_finite (x : f64) : is_finite x = true -> to_xr x = Fin (B2R x).
Proof. destruct x as [| [] | |]; cbn; try discriminate; reflexivity. Qed.

Lemma to_xr_nan (x : f64) : xisnan (to_xr x) = is_nan x.
Proof. destruct x as [| [] | |]; reflexivity. Qed.

Lemma Rltb_bool x y : Rltb x y = Rlt_bool x y.
Proof. destruct (Rltb_spec x y), (Rlt_bool_spec x y); try reflexivity; lra. Qed.

Lemma finite_cases (x : f64) : is_finite x = true \/ x = B754_infinity false \/ x = B754_infinity true \/ x = B754_nan.
Proof. destruct x as [| [] | |]; auto. Qed.

Lemma to_xr_lt (x y : f64) : Bltb x y = xltb (to_xr x) (to_xr y).
Proof.
  destruct (finite_cases x) as [Hx|[->|[->| ->]]], (finite_cases y) as [Hy|[->|[->| ->]]];
    try (rewrite !to_xr_finite by assumption; cbn; rewrite Rltb_bool; apply Bltb_correct; assumption);
    try (rewrite (to_xr_finite x) by assumption; destruct x as [[]| [] | |[]]; try discriminate; reflexivity);
    try (rewrite (to_xr_finite y) by assumption; destruct y as [[]| [] | |[]]; try discriminate; reflexivity);
    reflexivity.
Qed.

Lemma to_xr_le (x y : f64) : Bleb x y = xleb (to_xr x) (to_xr y).
Proof.
  unfold xleb. rewrite !to_xr_nan.
  destruct (finite_cases x) as [Hx|[->|[->| ->]]], (finite_cases y) as [Hy|[->|[->| ->]]]; try reflexivity;
    try (destruct x as [[]| [] | |[]]; try discriminate; reflexivity);
    try (destruct y as [[]| [] | |[]]; try discriminate; reflexivity).
  assert (Nx : is_nan x = false) by (destruct x; try discriminate; reflexivity).
  assert (Ny : is_nan y = false) by (destruct y; try discriminate; reflexivity).
  rewrite Nx, Ny, !to_xr_finite by assumption. cbn. rewrite Rltb_bool, Bleb_correct by assumption.
  destruct (Rle_bool_spec (B2R x) (B2R y)), (Rlt_bool_spec (B2R y) (B2R x)); try reflexivity; lra.
Qed.

Lemma to_xr_eq (x y : f64) : Beqb x y = xeqb (to_xr x) (to_xr y).
Proof.
  unfold xeqb. rewrite <- !to_xr_le. unfold Beqb, Bleb, SpecFloat.SFeqb, SpecFloat.SFleb.
  fold (Bcompare x y). fold (Bcompare y x). rewrite (Bcompare_swap _ _ x y).
  destruct (Bcompare x y) as [[]|]; reflexivity.
Qed.

(** Integers up to 2^53 are exact. *)
Lemma f64_ofZ_correct z : (Z.abs z <= 2 ^ 53)%Z ->
  B2R (f64_ofZ z) = IZR z /\ is_finite (f64_ofZ z) = true.
Proof.
  intros H. unfold f64_ofZ.
  pose proof (binary_normalize_correct 53 1024 _ _ mode_NE z 0 false) as C. cbv zeta in C.
  assert (E : F2R (Float radix2 z 0) = IZR z) by (unfold F2R; cbn; lra).
  rewrite E in C.
  assert (G : generic_format radix2 (SpecFloat.fexp 53 1024) (IZR z)).
  { destruct (Z.eq_dec (Z.abs z) (2 ^ 53)) as [Q|Q].
    - assert (P : generic_format radix2 (SpecFloat.fexp 53 1024) (bpow radix2 53)).
      { apply generic_format_bpow. unfold SpecFloat.fexp, SpecFloat.emin. lia. }
      assert (B : bpow radix2 53 = IZR (2 ^ 53)) by reflexivity.
      destruct (Z.abs_eq_or_opp z) as [A|A]; rewrite A in Q.
      + rewrite Q, <- B. exact P.
      + replace z with (- (2 ^ 53))%Z by lia. rewrite opp_IZR, <- B. apply generic_format_opp, P.
    - apply generic_format_FLT with (beta := radix2) (emin := (3 - 1024 - 53)%Z) (prec := 53%Z).
      exists (Float radix2 z 0); cbn; [unfold F2R; cbn; lra|lia|lia]. }
  rewrite round_generic in C by (auto with typeclass_instances).
  assert (L : Rabs (IZR z) < bpow radix2 1024).
  { rewrite <- abs_IZR. apply Rle_lt_trans with (IZR (2 ^ 53)); [apply IZR_le; exact H|].
    change (IZR (2 ^ 53)) with (bpow radix2 53). apply bpow_lt. lia. }
  rewrite Rlt_bool_true in C by exact L. destruct C as (A & B & _). split; assumption.
Qed.

Lemma to_xr_ofZ z : (Z.abs z <= 2 ^ 53)%Z -> to_xr (f64_ofZ z) = Fin (IZR z).
Proof. intros H. destruct (f64_ofZ_correct z H) as [A B]. rewrite to_xr_finite, A by exact B. reflexivity. Qed.

#[global] Instance IEEEOrd (log10 : f64 -> f64) : @OrdNum f64 (IEEE log10).
Proof.
  split; cbn.
  - intros a. rewrite to_xr_lt. exact (@lt_irrefl xr _ _ (to_xr a)).
  - intros a b c. rewrite !to_xr_lt. exact (@lt_trans xr _ _ (to_xr a) (to_xr b) (to_xr c)).
  - intros a b c. rewrite !to_xr_lt, <- to_xr_nan. exact (@lt_cotrans xr _ _ (to_xr a) (to_xr b) (to_xr c)).
  - intros a b. rewrite to_xr_lt, <- to_xr_nan. exact (@lt_nan_l xr _ _ (to_xr a) (to_xr b)).
  - intros a b. rewrite to_xr_lt, <- to_xr_nan. exact (@lt_nan_r xr _ _ (to_xr a) (to_xr b)).
  - intros a b. rewrite to_xr_le, <- to_xr_nan. exact (@le_nan_l xr _ _ (to_xr a) (to_xr b)).
  - intros a b. rewrite to_xr_le, <- to_xr_nan. exact (@le_nan_r xr _ _ (to_xr a) (to_xr b)).
  - intros a b. rewrite to_xr_le, to_xr_lt, <- !to_xr_nan. exact (@le_lt xr _ _ (to_xr a) (to_xr b)).
  - intros a b. rewrite to_xr_eq, !to_xr_le. reflexivity.
  - intros z. unfold fZ; cbn. apply is_nan_binary_normalize.
  - intros a b Ha Hb. unfold fZ; cbn. rewrite to_xr_lt, !to_xr_ofZ by assumption.
    exact (@lt_fZ xr _ _ a b Ha Hb).
Qed.
