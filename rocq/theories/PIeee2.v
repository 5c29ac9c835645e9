(** * PIeee2: multiplying by one and minus one, and adding zero, in f64. *)
From Flocq Require Import Core IEEE754.BinarySingleNaN.
From Verif Require Export PIeee.
Local Open Scope R_scope.

Lemma f64_mul_unit (x y : f64) : is_finite y = true -> Rabs (B2R y) = 1 ->
  Bmult mode_NE x y = if Bsign y then Bopp x else x.
Proof.
  intros FY AY.
  assert (NZ : match y with B754_finite _ _ _ _ => True | _ => False end).
  { destruct y; try exact I; cbn in AY; try discriminate FY; rewrite Rabs_R0 in AY; lra. }
  destruct (finite_cases x) as [FX|[->|[->| ->]]].
  2,3,4: destruct y; try contradiction; cbn; destruct s; reflexivity.
  pose proof (Bmult_correct 53 1024 _ _ mode_NE x y) as C.
  assert (YS : B2R y = if Bsign y then -1 else 1).
  { destruct y as [| | |s m e B]; try contradiction. cbn [Bsign]. cbn [B2R] in *.
    assert (SG : (if s then B2R (B754_finite s m e B) < 0 else 0 < B2R (B754_finite s m e B)) ).
    { destruct s; cbn [B2R]; [apply F2R_lt_0|apply F2R_gt_0]; cbn; lia. }
    cbn [B2R] in SG. destruct s.
    - rewrite Rabs_left in AY by exact SG. lra.
    - rewrite Rabs_right in AY by lra. exact AY. }
  assert (RX : round radix2 (SpecFloat.fexp 53 1024) (round_mode mode_NE) (B2R x * B2R y) = B2R (if Bsign y then Bopp x else x)).
  { rewrite YS. destruct (Bsign y).
    - rewrite B2R_Bopp. replace (B2R x * -1) with (- B2R x) by ring.
      apply round_generic; [auto with typeclass_instances|]. apply generic_format_opp, generic_format_B2R.
    - rewrite Rmult_1_r. apply round_generic; [auto with typeclass_instances|]. apply generic_format_B2R. }
  rewrite RX in C. rewrite Rlt_bool_true in C by apply abs_B2R_lt_emax.
  destruct C as (C1 & C2 & C3). rewrite FX, FY in C2. cbn [andb] in C2.
  assert (FR : is_finite (if Bsign y then Bopp x else x) = true).
  { destruct (Bsign y); [rewrite is_finite_Bopp|]; exact FX. }
  assert (NN : is_nan (Bmult mode_NE x y) = false) by (destruct (Bmult mode_NE x y); try discriminate C2; reflexivity).
  apply B2R_Bsign_inj; [exact C2|exact FR|exact C1|]. rewrite (C3 NN).
  destruct (Bsign y); [rewrite Bsign_Bopp by (destruct x; try discriminate FX; reflexivity)|];
    destruct (Bsign x); reflexivity.
Qed.

Lemma f64_mul_1 (x : f64) : Bmult mode_NE x (f64_ofZ 1) = x.
Proof.
  destruct (f64_ofZ_correct 1 ltac:(cbn; lia)) as [A B].
  rewrite f64_mul_unit; [|exact B|rewrite A; apply Rabs_R1].
  replace (Bsign (f64_ofZ 1)) with false by (vm_compute; reflexivity). reflexivity.
Qed.
Lemma f64_mul_m1 (x : f64) : Bmult mode_NE x (f64_ofZ (-1)) = Bopp x.
Proof.
  destruct (f64_ofZ_correct (-1) ltac:(cbn; lia)) as [A B].
  rewrite f64_mul_unit; [|exact B|rewrite A; unfold Rabs; destruct (Rcase_abs (-1)); lra].
  replace (Bsign (f64_ofZ (-1))) with true by (vm_compute; reflexivity). reflexivity.
Qed.
(** Adding zero changes nothing, except that -0 + 0 = 0. *)
Lemma f64_add_0 (x : f64) : x <> B754_zero true -> Bplus mode_NE x (f64_ofZ 0) = x.
Proof.
  intros NZ. change (f64_ofZ 0) with (B754_zero false : f64).
  destruct x as [[]| | |]; cbn; try reflexivity; try contradiction.

Qed.
