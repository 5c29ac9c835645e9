(** * PropRatio: C123 (ratios of the current window are accurate in f64 for any prices). *)
From Coq Require Import Reals Lra Lia Psatz.
From Flocq Require Import Core IEEE754.BinarySingleNaN Relative.
From Verif Require Import PropWhole.
From Verif Require Import Inst PropTick PropWin PIeee2 PRound PMono PropError PropDrift PExact3 PropTa3.
Local Open Scope R_scope.

(** [y] is a number within [a] roundings and [k] underflows of the real number [r]. *)
Definition accurate (a k : nat) (y : f64) (r : R) : Prop :=
  is_finite y = true /\ Rabs (B2R y - r) <= grown a * Rabs r + INR k * eta64.

Lemma u64_small : u64 <= / 4.
Proof. unfold u64. replace (/ 4) with (bpow radix2 (-2)) by (cbn; lra). apply bpow_le. lia. Qed.
Lemma accurate_more a k a' k' y r : (a <= a')%nat -> (k <= k')%nat -> accurate a k y r -> accurate a' k' y r.
Proof.
  intros La Lk [F H]. split; [exact F|]. pose proof (grown_mono a a' La). pose proof (le_INR _ _ Lk). pose proof eta64_pos. pose proof (Rabs_pos r).
  eapply Rle_trans; [exact H|]. apply Rplus_le_compat; apply Rmult_le_compat_r; lra.
Qed.
Lemma accurate_nonzero a y r : (a <= 1)%nat -> accurate a 0 y r -> r <> 0 -> B2R y <> 0.
Proof.
  intros L [_ H] N Z. rewrite Z in H. cbn [INR] in H. pose proof (grown_mono a 1 L) as G. rewrite grown_1 in G. pose proof u64_small.
  replace (0 - r) with (- r) in H by ring. rewrite Rabs_Ropp in H. pose proof (Rabs_pos_lt r N). nra.
Qed.
Lemma accurate_zero a y : accurate a 0 y 0 -> B2R y = 0.
Proof. intros [_ H]. cbn [INR] in H. rewrite Rabs_R0, Rminus_0_r in H. pose proof (Rabs_pos (B2R y)). destruct (Req_dec (B2R y) 0) as [|N]; [assumption|]. pose proof (Rabs_pos_lt _ N). lra. Qed.

Section Ops.
  Variable log10 : f64 -> f64.
  #[local] Instance N123 : Num f64 := IEEE log10.
  Notation fexp64 := (SpecFloat.fexp 53 1024).
  Notation rnd r := (round radix2 fexp64 (round_mode mode_NE) r).

  Lemma every_tick (x : f64) : moderate x -> ticks_of (-1074) (2 ^ 1974) x.
  Proof.
    intros [F B]. split; [exact F|].
    assert (G : generic_format radix2 (FIX_exp (-1074)) (B2R x)).
    { pose proof (generic_format_B2R 53 1024 x) as G. change fexp64 with (FLT_exp (-1074) 53) in G. apply (generic_format_FIX_FLT radix2 (-1074) 53 _ G). }
    apply FIX_format_generic in G. destruct G as [[z ex] E Ex]. cbn in Ex. subst ex. exists z. split; [exact E|].
    rewrite E in B. unfold F2R in B. cbn [Fnum Fexp] in B. rewrite Rabs_mult, (Rabs_pos_eq (bpow _ _)) in B by apply bpow_ge_0.
    apply le_IZR. rewrite abs_IZR. change (2 ^ 1974)%Z with (radix2 ^ 1974)%Z. rewrite IZR_Zpower by lia.
    apply (Rmult_le_reg_r (bpow radix2 (-1074))); [apply bpow_gt_0|]. eapply Rle_trans; [exact B|]. rewrite <- bpow_plus. apply bpow_le. lia.
  Qed.

  Lemma sub_accurate (x y : f64) : moderate x -> moderate y -> accurate 1 0 (fsub x y) (B2R x - B2R y) /\ Rabs (B2R (fsub x y)) <= bpow radix2 901.
  Proof.
    intros [Fx Bx] [Fy By]. assert (H : Rabs (B2R x - B2R y) <= INR 1 * bpow radix2 901).
    { cbn [INR]. replace (bpow radix2 901) with (bpow radix2 900 + bpow radix2 900). { unfold Rminus. eapply Rle_trans; [apply Rabs_triang|]. rewrite Rabs_Ropp. lra. }
      change 901%Z with (900 + 1)%Z. rewrite bpow_plus. change (bpow radix2 1) with 2. ring. }
    pose proof (rounded_bound 1 901 _ ltac:(cbn; lia) ltac:(lia) H) as R1. pose proof (below_max 1 901 ltac:(cbn; lia) ltac:(lia)) as R2.
    pose proof (Bminus_correct 53 1024 _ _ mode_NE x y Fx Fy) as C. rewrite Rlt_bool_true in C by (eapply Rle_lt_trans; eassumption).
    destruct C as (C & F & _). change (fsub x y) with (Bminus mode_NE x y).
    split; [split; [exact F|]|].
    - destruct (minus_rel x y F) as (_ & _ & E). rewrite grown_1. cbn [INR]. rewrite Rmult_0_l, Rplus_0_r. exact E.
    - rewrite C. cbn [INR] in R1. rewrite Rmult_1_l in R1. exact R1.
  Qed.

  (** Multiplying by a whole number never underflows. *)
  Lemma rnd_timesZ (x : f64) (k : Z) : is_finite x = true -> Rabs (rnd (IZR k * B2R x) - IZR k * B2R x) <= u64 * Rabs (IZR k * B2R x).
  Proof.
    intros F. destruct (Rlt_le_dec (Rabs (IZR k * B2R x)) (bpow radix2 (-1022))) as [S|L].
    - assert (G : generic_format radix2 fexp64 (IZR k * B2R x)).
      { change fexp64 with (FLT_exp (-1074) 53). apply generic_format_FLT_FIX; [reflexivity|..].
        - apply Rle_trans with (bpow radix2 (-1022)); [apply Rlt_le; exact S|]. apply bpow_le. lia.
        - pose proof (generic_format_B2R 53 1024 x) as G. change fexp64 with (FLT_exp (-1074) 53) in G. apply generic_format_FIX_FLT in G.
          apply FIX_format_generic in G. destruct G as [[z ex] E Ex]. cbn in Ex. subst ex. apply generic_format_FIX. exists (Float radix2 (k * z) (-1074)); [|reflexivity].
          rewrite E. unfold F2R. cbn [Fnum Fexp]. rewrite mult_IZR. ring. }
      rewrite round_generic; [|apply valid_rnd_N|exact G]. replace (_ - _) with 0 by ring. rewrite Rabs_R0. apply Rmult_le_pos; [apply Rlt_le, u64_pos|apply Rabs_pos].
    - change fexp64 with (FLT_exp (-1074) 53). pose proof (relative_error_N_FLT radix2 (-1074) 53 eq_refl (fun x => negb (Z.even x)) _ L) as E.
      eapply Rle_trans; [exact E|]. apply Rmult_le_compat_r; [apply Rabs_pos|]. unfold u64. change (- (53) + 1)%Z with (-53 + 1)%Z. rewrite bpow_plus. cbn. lra.
  Qed.
  Lemma hundred : is_finite (@fZ f64 N123 100) = true /\ B2R (@fZ f64 N123 100) = 100.
  Proof. destruct (f64_ofZ_correct 100) as [V F]; [cbn; lia|]. split; [exact F|exact V]. Qed.

  Lemma times_accurate a k (x : f64) r : accurate a k x r -> Rabs (100 * B2R x) <= bpow radix2 970 ->
    accurate (S a) (101 * k) (fmul (fZ 100) x) (100 * r) /\ accurate (S a) (101 * k) (fmul x (fZ 100)) (100 * r) /\ Rabs (B2R (fmul (fZ 100) x)) <= bpow radix2 970.
  Proof.
    intros [F H] B. destruct hundred as [Fh Vh]. pose proof (rnd_timesZ x 100 F) as E.
    assert (B' : Rabs (B2R (@fZ f64 N123 100) * B2R x) <= INR 1 * bpow radix2 970) by (rewrite Vh; cbn [INR]; lra).
    assert (B2 : Rabs (B2R x * B2R (@fZ f64 N123 100)) <= INR 1 * bpow radix2 970) by (rewrite Rmult_comm; exact B').
    destruct (mult_bounded log10 1 970 _ _ Fh F ltac:(cbn; lia) ltac:(lia) B') as [F1 M1]. destruct (mult_bounded log10 1 970 _ _ F Fh ltac:(cbn; lia) ltac:(lia) B2) as [F2 M2].
    assert (T : Rabs (rnd (100 * B2R x) - 100 * r) <= grown (S a) * Rabs (100 * r) + INR (101 * k) * eta64).
    { pose proof (grown_S a) as G. set (g := grown (S a)) in *. pose proof (grown_nonneg a) as Ga. set (ga := grown a) in *. pose proof u64_pos. pose proof u64_small. pose proof eta64_pos as Et.
      assert (K : INR (101 * k) = 101 * INR k) by (rewrite mult_INR; f_equal; cbn; lra). rewrite K. pose proof (pos_INR k) as Pk.
      rewrite Rabs_mult, (Rabs_pos_eq 100) in E by lra. rewrite Rabs_mult, (Rabs_pos_eq 100) by lra.
      assert (X : Rabs (B2R x) <= Rabs r + (ga * Rabs r + INR k * eta64)).
      { replace (B2R x) with (r + (B2R x - r)) by ring. eapply Rle_trans; [apply Rabs_triang|]. lra. }
      replace (rnd (100 * B2R x) - 100 * r) with ((rnd (100 * B2R x) - 100 * B2R x) + 100 * (B2R x - r)) by ring.
      eapply Rle_trans; [apply Rabs_triang|]. rewrite (Rabs_mult 100), (Rabs_pos_eq 100) by lra.
      assert (Y : u64 * Rabs (B2R x) <= u64 * (Rabs r + (ga * Rabs r + INR k * eta64))) by (apply Rmult_le_compat_l; lra).
      assert (Ke : 0 <= INR k * eta64) by (apply Rmult_le_pos; lra). pose proof (Rabs_pos r) as Pr.
      replace g with (ga + u64 + ga * u64) by lra. set (ke := INR k * eta64) in *. set (R0 := Rabs r) in *.
      assert (u64 * ke <= / 100 * ke).
      { apply Rmult_le_compat_r; [exact Ke|]. unfold u64. apply Rle_trans with (bpow radix2 (-7)); [apply bpow_le; lia|cbn; lra]. }
      replace (101 * INR k * eta64) with (101 * ke) by (unfold ke; ring). nra. }
    destruct (mult_rounded _ _ Fh F) as [(_ & E1 & _)|[[E1 _]|[E1 _]]]; [|exfalso; change (fmul (@fZ f64 N123 100) x) with (Bmult mode_NE (@fZ f64 N123 100) x) in F1; rewrite E1 in F1; discriminate F1..].
    destruct (mult_rounded _ _ F Fh) as [(_ & E2 & _)|[[E2 _]|[E2 _]]]; [|exfalso; change (fmul x (@fZ f64 N123 100)) with (Bmult mode_NE x (@fZ f64 N123 100)) in F2; rewrite E2 in F2; discriminate F2..].
    split; [split; [exact F1|]|split; [split; [exact F2|]|]].
    - change (fmul (@fZ f64 N123 100) x) with (Bmult mode_NE (@fZ f64 N123 100) x). rewrite E1, Vh. exact T.
    - change (fmul x (@fZ f64 N123 100)) with (Bmult mode_NE x (@fZ f64 N123 100)). rewrite E2, Vh, (Rmult_comm (B2R x)). exact T.
    - cbn [INR] in M1. rewrite Rmult_1_l in M1. exact M1.
  Qed.

  (** Rounding a quotient that is already within [b] roundings of [w]. *)
  Lemma quotient_core b (p d : f64) w : is_finite p = true -> B2R d <> 0 -> (b <= 12)%nat -> Rabs (B2R p / B2R d - w) <= grown b * Rabs w -> Rabs w <= bpow radix2 960 ->
    accurate (S b) 1 (fdiv p d) w /\ Rabs (B2R (fdiv p d)) <= bpow radix2 961.
  Proof.
    intros Fp Nd Lb Q B. pose proof u64_pos as U0. pose proof u64_small as U1. pose proof eta64_pos as Et.
    assert (G12 : grown b <= 1).
    { eapply Rle_trans; [apply (grown_mono b 12); lia|]. eapply Rle_trans; [apply grown_linear; cbn; lia|].
      assert (U2 : u64 <= / 1024) by (unfold u64; apply Rle_trans with (bpow radix2 (-10)); [apply bpow_le; lia|cbn; lra]).
      rewrite INR_IZR_INZ. change (Z.of_nat 12) with 12%Z. lra. }
    pose proof (Rabs_pos w) as PQ. assert (QB : Rabs (B2R p / B2R d) <= 2 * Rabs w).
    { replace (B2R p / B2R d) with (w + (B2R p / B2R d - w)) by ring. eapply Rle_trans; [apply Rabs_triang|]. nra. }
    assert (BB : Rabs (B2R p / B2R d) <= INR 1 * bpow radix2 961).
    { cbn [INR]. change 961%Z with (960 + 1)%Z. rewrite bpow_plus. change (bpow radix2 1) with 2. lra. }
    pose proof (rounded_bound 1 961 _ ltac:(cbn; lia) ltac:(lia) BB) as R1. pose proof (below_max 1 961 ltac:(cbn; lia) ltac:(lia)) as R2.
    pose proof (Bdiv_correct 53 1024 _ _ mode_NE p d Nd) as C. rewrite Rlt_bool_true in C by (eapply Rle_lt_trans; eassumption).
    destruct C as (C & F & _). change (fdiv p d) with (Bdiv mode_NE p d). split; [split|].
    - refine (eq_trans F Fp).
    - rewrite C. pose proof (rnd_err (B2R p / B2R d)) as E. set (q := B2R p / B2R d) in *.
      pose proof (grown_S b) as G. pose proof (grown_nonneg b) as G2. set (g2 := grown b) in *. set (g3 := grown (S b)) in *.
      assert (Y : Rabs q <= Rabs w + g2 * Rabs w). { replace q with (w + (q - w)) by ring. eapply Rle_trans; [apply Rabs_triang|]. lra. }
      replace (rnd q - w) with ((rnd q - q) + (q - w)) by ring. eapply Rle_trans; [apply Rabs_triang|]. cbn [INR].
      assert (u64 * Rabs q <= u64 * (Rabs w + g2 * Rabs w)) by (apply Rmult_le_compat_l; lra). replace g3 with (g2 + u64 + g2 * u64) by lra. nra.
    - rewrite C. cbn [INR] in R1. rewrite Rmult_1_l in R1. exact R1.
  Qed.
  (** Dividing by an exact number. *)
  Lemma over_accurate a (p d : f64) P : accurate a 0 p P -> (a <= 10)%nat -> B2R d <> 0 -> Rabs (P / B2R d) <= bpow radix2 960 ->
    accurate (S a) 1 (fdiv p d) (P / B2R d) /\ Rabs (B2R (fdiv p d)) <= bpow radix2 961.
  Proof.
    intros [Fp Hp] La Nd B. cbn [INR] in Hp. rewrite Rmult_0_l, Rplus_0_r in Hp. apply quotient_core; try assumption; [lia|].
    replace (B2R p / B2R d - P / B2R d) with ((B2R p - P) / B2R d) by (field; exact Nd). unfold Rdiv. rewrite !Rabs_mult, <- Rmult_assoc.
    apply Rmult_le_compat_r; [apply Rabs_pos|exact Hp].
  Qed.
  (** Dividing a number that came from [a] roundings by one that came from at most one. *)
  Lemma quotient_accurate a (p d : f64) P D : accurate a 0 p P -> accurate 1 0 d D -> (a <= 10)%nat -> D <> 0 -> Rabs (P / D) <= bpow radix2 960 ->
    accurate (a + 3) 1 (fdiv p d) (P / D) /\ Rabs (B2R (fdiv p d)) <= bpow radix2 961.
  Proof.
    intros [Fp Hp] Ad La ND B. pose proof (accurate_nonzero _ _ _ (le_n 1) Ad ND) as Nd. destruct Ad as [Fd Hd].
    cbn [INR] in Hp, Hd. rewrite Rmult_0_l, Rplus_0_r in Hp, Hd. rewrite grown_1 in Hd. pose proof u64_pos as U0. pose proof u64_small as U1. pose proof eta64_pos as Et.
    pose proof (grown_nonneg a) as Ga. set (ga := grown a) in *.
    assert (Q : Rabs (B2R p / B2R d - P / D) <= grown (a + 2) * Rabs (P / D)).
    { assert (G2 : grown (a + 2) = (1 + ga) * ((1 + u64) * (1 + u64)) - 1) by (pose proof (grown_add a 2) as G; unfold ga; assert (grown 2 = (1 + u64) * (1 + u64) - 1) by (unfold grown; cbn [pow]; ring); nra).
      assert (LD : Rabs D <= Rabs (B2R d) * ((1 + u64) * (1 + u64))).
      { assert (T : Rabs D <= Rabs (B2R d) + u64 * Rabs D).
        { replace D with (B2R d - (B2R d - D)) at 1 by ring. unfold Rminus at 1. eapply Rle_trans; [apply Rabs_triang|]. rewrite Rabs_Ropp. lra. }
        pose proof (Rabs_pos D) as PD. pose proof (Rabs_pos (B2R d)) as Pd.
        assert (I1 : Rabs D * (1 - u64) <= Rabs (B2R d)) by lra.
        assert (I2 : 1 <= (1 - u64) * ((1 + u64) * (1 + u64))) by nra.
        apply Rle_trans with (Rabs D * ((1 - u64) * ((1 + u64) * (1 + u64)))); [|nra].
        rewrite <- (Rmult_1_r (Rabs D)) at 1. apply Rmult_le_compat_l; lra. }
      replace (B2R p / B2R d - P / D) with (((B2R p - P) * D - P * (B2R d - D)) / (B2R d * D)) by (field; split; assumption).
      unfold Rdiv. rewrite Rabs_mult, Rabs_inv, !Rabs_mult, Rabs_inv.
      pose proof (Rabs_pos_lt _ ND) as PD. pose proof (Rabs_pos_lt _ Nd) as Pd. pose proof (Rabs_pos P) as PP.
      apply (Rmult_le_reg_r (Rabs (B2R d) * Rabs D)); [apply Rmult_lt_0_compat; assumption|].
      rewrite Rmult_assoc, Rinv_l, Rmult_1_r by (apply Rgt_not_eq, Rmult_lt_0_compat; assumption).
      replace (grown (a + 2) * (Rabs P * / Rabs D) * (Rabs (B2R d) * Rabs D)) with (grown (a + 2) * Rabs P * Rabs (B2R d)) by (field; lra).
      unfold Rminus at 1. eapply Rle_trans; [apply Rabs_triang|]. rewrite Rabs_Ropp, !Rabs_mult.
      apply Rle_trans with (ga * Rabs P * Rabs D + Rabs P * (u64 * Rabs D)).
      { apply Rplus_le_compat; [apply Rmult_le_compat_r; [lra|exact Hp]|apply Rmult_le_compat_l; [lra|exact Hd]]. }
      replace (ga * Rabs P * Rabs D + Rabs P * (u64 * Rabs D)) with (Rabs P * ((ga + u64) * Rabs D)) by ring.
      replace (grown (a + 2) * Rabs P * Rabs (B2R d)) with (Rabs P * (grown (a + 2) * Rabs (B2R d))) by ring. apply Rmult_le_compat_l; [exact PP|].
      apply Rle_trans with ((ga + u64) * (Rabs (B2R d) * ((1 + u64) * (1 + u64)))); [apply Rmult_le_compat_l; lra|].
      rewrite G2. replace ((ga + u64) * (Rabs (B2R d) * ((1 + u64) * (1 + u64)))) with ((ga + u64) * ((1 + u64) * (1 + u64)) * Rabs (B2R d)) by ring.
      apply Rmult_le_compat_r; [lra|]. nra. }
    replace (a + 3)%nat with (S (a + 2)) by lia. apply quotient_core; try assumption. lia.
  Qed.

  Lemma exact_accurate (x : f64) : is_finite x = true -> accurate 0 0 x (B2R x).
  Proof. intros F. split; [exact F|]. replace (B2R x - B2R x) with 0 by ring. rewrite Rabs_R0. unfold grown. cbn [pow INR]. lra. Qed.
  (** Adding non-negative numbers. *)
  Lemma add_accurate j a (x y : f64) r : accurate a 0 x r -> 0 <= r -> moderate y -> 0 <= B2R y -> (j <= 4)%nat -> Rabs (B2R x) <= INR j * bpow radix2 900 ->
    accurate (S a) 0 (fadd x y) (r + B2R y) /\ Rabs (B2R (fadd x y)) <= INR (S j) * bpow radix2 900.
  Proof.
    intros [Fx Hx] Pr [Fy By] Py Lj Bx. cbn [INR] in Hx. rewrite Rmult_0_l, Rplus_0_r in Hx.
    assert (By' : Rabs (B2R y) <= INR 1 * bpow radix2 900) by (cbn [INR]; lra).
    destruct (plus_bounded log10 j 1 900 x y Fx Fy ltac:(lia) ltac:(lia) Bx By') as [F M]. replace (j + 1)%nat with (S j) in M by lia.
    split; [split; [exact F|]|exact M]. destruct (plus_rel x y F) as (_ & _ & E). change (fadd x y) with (Bplus mode_NE x y).
    rewrite (Rabs_pos_eq r) in Hx by exact Pr. rewrite (Rabs_pos_eq (r + B2R y)) by lra. cbn [INR]. rewrite Rmult_0_l, Rplus_0_r.
    pose proof (grown_S a) as G. pose proof (grown_nonneg a) as G2. set (g2 := grown a) in *. set (g3 := grown (S a)) in *. pose proof u64_pos.
    replace (B2R (Bplus mode_NE x y) - (r + B2R y)) with ((B2R (Bplus mode_NE x y) - (B2R x + B2R y)) + (B2R x - r)) by ring.
    eapply Rle_trans; [apply Rabs_triang|].
    assert (Y : Rabs (B2R x + B2R y) <= (1 + g2) * (r + B2R y)).
    { replace (B2R x + B2R y) with ((r + B2R y) + (B2R x - r)) by ring. eapply Rle_trans; [apply Rabs_triang|]. rewrite (Rabs_pos_eq (r + B2R y)) by lra. nra. }
    assert (u64 * Rabs (B2R x + B2R y) <= u64 * ((1 + g2) * (r + B2R y))) by (apply Rmult_le_compat_l; lra). replace g3 with (g2 + u64 + g2 * u64) by lra. nra.
  Qed.
  Lemma max_accurate a (x y : f64) r s : accurate a 0 x r -> accurate a 0 y s -> 0 <= r -> 0 <= s -> accurate a 0 (fmax x y) (Rmax r s).
  Proof.
    intros [Fx Hx] [Fy Hy] Pr Ps. pose proof (max_exact log10 x y) as M. change (N112 log10) with N123 in M.
    rewrite (to_xr_finite _ Fx), (to_xr_finite _ Fy), fin_max in M.
    assert (FM : is_finite (fmax x y) = true) by (unfold fmax; destruct (fisnan x), (fisnan y), (fltb x y); assumption).
    rewrite (to_xr_finite _ FM) in M. apply PropDrift.fin_eq in M. split; [exact FM|]. rewrite M. cbn [INR] in *. rewrite Rmult_0_l, Rplus_0_r in *.
    pose proof (grown_nonneg a). set (g := grown a) in *. rewrite (Rabs_pos_eq r) in Hx by lra. rewrite (Rabs_pos_eq s) in Hy by lra.
    apply Rabs_def2' in Hx. apply Rabs_def2' in Hy. rewrite (Rabs_pos_eq (Rmax r s)) by (eapply Rle_trans; [exact Pr|apply Rmax_l]). apply Rabs_le.
    unfold Rmax. destruct (Rle_dec (B2R x) (B2R y)), (Rle_dec r s); split; nra.
  Qed.
  Lemma abs_accurate a (x : f64) r : accurate a 0 x r -> accurate a 0 (fabs x) (Rabs r).
  Proof.
    intros [F H]. change (fabs x) with (Babs x). split; [rewrite is_finite_Babs; exact F|]. rewrite B2R_Babs, Rabs_Rabsolu.
    eapply Rle_trans; [apply Rabs_triang_inv2|exact H].
  Qed.

  (** ** Values *)
  Definition all_moderate (xs : list (option f64)) : Prop := forall x, In (Some x) xs -> moderate x.
  Lemma eq_zero (x : f64) : is_finite x = true -> feqb x (fZ 0) = Reqb (B2R x) 0.
  Proof.
    intros F. change (feqb x (fZ 0)) with (Beqb x (f64_ofZ 0)). rewrite to_xr_eq, (to_xr_finite _ F), (to_xr_ofZ 0) by (cbn; lia). apply Exact.fin_eq.
  Qed.
  Lemma eq_numbers (x y : f64) : is_finite x = true -> is_finite y = true -> feqb x y = Reqb (B2R x) (B2R y).
  Proof. intros F G. change (feqb x y) with (Beqb x y). rewrite to_xr_eq, (to_xr_finite _ F), (to_xr_finite _ G). apply Exact.fin_eq. Qed.

  Theorem C123_change len c xs : (1 <= len)%nat -> all_moderate xs ->
    exists os, run_new (change_new len) change_step c xs = Ok os /\ List.length os = List.length xs /\
    forall i o, nth_error os i = Some o ->
      match join (ago len (firstn (S i) xs)), nth_error xs i with
      | Some old, Some (Some new) => (B2R old = 0 -> o = None) /\ (B2R old <> 0 -> exists v, o = Some v /\ accurate 1 0 v (B2R new - B2R old))
      | _, _ => o = None
      end.
  Proof.
    intros L W. rewrite (change_run len c xs L). eexists; split; [reflexivity|]. split; [apply length_each_prefix|].
    intros i o Ho. apply nth_each in Ho. destruct Ho as [Hi ->].
    destruct (nth_error xs i) as [x|] eqn:N; [|apply nth_error_Some in Hi; contradiction].
    assert (Wh : all_moderate (firstn (S i) xs)) by (intros y I; apply W, (firstn_In _ _ _ I)). unfold change_out.
    assert (NX : join (newest (firstn (S i) xs)) = x) by (rewrite (PropTa3.firstn_S_nth _ _ _ N), newest_snoc; reflexivity). rewrite NX in *.
    destruct (join (ago len (firstn (S i) xs))) as [old|] eqn:OA; [|reflexivity]. destruct x as [new|]; [|reflexivity].
    pose proof (Wh old (in_ago _ _ _ OA)) as MO. pose proof (Wh new (in_newest _ _ NX)) as MN. rewrite (eq_zero old (proj1 MO)).
    destruct (Reqb_spec (B2R old) 0) as [Z|Z]; (split; [intros H; first [reflexivity|contradiction]|intros H; first [contradiction|idtac]]).
    eexists; split; [reflexivity|]. exact (proj1 (sub_accurate _ _ MN MO)).
  Qed.

  Lemma hundred_times (x : f64) : Rabs (B2R x) <= bpow radix2 961 -> Rabs (100 * B2R x) <= bpow radix2 970.
  Proof.
    intros B. rewrite Rabs_mult, (Rabs_pos_eq 100) by lra. apply Rle_trans with (bpow radix2 7 * bpow radix2 961); [|rewrite <- bpow_plus; apply bpow_le; lia].
    apply Rmult_le_compat; [lra|apply Rabs_pos|cbn; lra|exact B].
  Qed.
  Lemma bpow_901 r : r <= bpow radix2 901 -> r <= bpow radix2 961.
  Proof. intros H. eapply Rle_trans; [exact H|]. apply bpow_le. lia. Qed.

  Theorem C123_roc len c xs : (1 <= len)%nat -> all_moderate xs ->
    exists os, run_new (roc_new len) roc_step c xs = Ok os /\ List.length os = List.length xs /\
    forall i o, nth_error os i = Some o ->
      match join (ago len (firstn (S i) xs)), nth_error xs i with
      | Some old, Some (Some new) =>
          let r := 100 * (B2R new - B2R old) / B2R old in
          (B2R old = 0 -> o = None) /\ (B2R old <> 0 -> exists v, o = Some v /\ (Rabs r <= bpow radix2 960 -> accurate 3 1 v r))
      | _, _ => o = None
      end.
  Proof.
    intros L W. rewrite (roc_run len c xs L). eexists; split; [reflexivity|]. split; [apply length_each_prefix|].
    intros i o Ho. apply nth_each in Ho. destruct Ho as [Hi ->].
    destruct (nth_error xs i) as [x|] eqn:N; [|apply nth_error_Some in Hi; contradiction].
    assert (Wh : all_moderate (firstn (S i) xs)) by (intros y I; apply W, (firstn_In _ _ _ I)). unfold roc_out.
    assert (NX : join (newest (firstn (S i) xs)) = x) by (rewrite (PropTa3.firstn_S_nth _ _ _ N), newest_snoc; reflexivity). rewrite NX in *.
    destruct (join (ago len (firstn (S i) xs))) as [old|] eqn:OA; [|reflexivity]. destruct x as [new|]; [|reflexivity].
    pose proof (Wh old (in_ago _ _ _ OA)) as MO. pose proof (Wh new (in_newest _ _ NX)) as MN. rewrite (eq_zero old (proj1 MO)). cbv zeta.
    destruct (Reqb_spec (B2R old) 0) as [Z|Z]; (split; [intros H; first [reflexivity|contradiction]|intros H; first [contradiction|idtac]]).
    eexists; split; [reflexivity|]. intros B. destruct (sub_accurate _ _ MN MO) as [A1 B1].
    destruct (times_accurate _ _ _ _ A1 (hundred_times _ (bpow_901 _ B1))) as (A2 & _ & _).
    exact (proj1 (over_accurate _ _ _ _ A2 ltac:(lia) Z B)).
  Qed.

  (** ** Bars *)
  (** The four prices are present, and moderate numbers. *)
  Definition moderate_bar (b : bar f64) : Prop :=
    exists o h l c, b_open b = Some o /\ b_high b = Some h /\ b_low b = Some l /\ b_close b = Some c /\ moderate o /\ moderate h /\ moderate l /\ moderate c.
  Lemma moderate_whole bs : Forall moderate_bar bs -> Forall (whole_bar (-1074) (2 ^ 1974)) bs.
  Proof.
    apply Forall_impl. intros b (o & h & l & c & H1 & H2 & H3 & H4 & M1 & M2 & M3 & M4). exists o, h, l, c.
    split; [exact H1|]. split; [exact H2|]. split; [exact H3|]. split; [exact H4|]. split; [apply every_tick, M1|]. split; [apply every_tick, M2|]. split; apply every_tick; assumption.
  Qed.
  Lemma tick_moderate (x : f64) : ticks_of (-1074) (2 ^ 1974) x -> moderate x.
  Proof.
    intros T. split; [apply T|]. pose proof (ticks_abs _ _ _ T) as B. eapply Rle_trans; [exact B|].
    change (2 ^ 1974)%Z with (radix2 ^ 1974)%Z. rewrite IZR_Zpower, <- bpow_plus by lia. apply bpow_le. lia.
  Qed.
  Lemma extrema_moderate len bs i b : (1 <= len)%nat -> Forall moderate_bar bs -> nth_error bs i = Some b ->
    match full_window len (firstn (S i) (map real_bar bs)) with
    | None => highest_out len 0 (map b_high (firstn (S i) bs)) = None /\ lowest_out len 0 (map b_low (firstn (S i) bs)) = None
    | Some w => exists u l, highest_out len 0 (map b_high (firstn (S i) bs)) = Some u /\ lowest_out len 0 (map b_low (firstn (S i) bs)) = Some l /\
        moderate u /\ moderate l /\ is_max (B2R u) (map rh w) /\ is_min (B2R l) (map rl w)
    end.
  Proof.
    intros L W Hb. pose proof (extrema_whole log10 (-1074) (2 ^ 1974) len bs i b L (moderate_whole _ W) Hb) as X. change (N113 log10) with N123 in X.
    destruct (full_window len (firstn (S i) (map real_bar bs))) as [w|]; [|exact X]. destruct X as (u & l & EU & EL & TU & TL & MU & ML & _ & _).
    exists u, l. split; [exact EU|]. split; [exact EL|]. split; [apply tick_moderate, TU|]. split; [apply tick_moderate, TL|]. split; assumption.
  Qed.

  Theorem C123_bop c bs : Forall moderate_bar bs -> fresh_over c bs ->
    exists os, run bop_step c tt (ticks (List.length bs)) = Ok os /\ List.length os = List.length bs /\
    forall i b o, nth_error bs i = Some b -> nth_error os i = Some o ->
      let r := real_bar b in
      (rh r = rl r -> o = None) /\
      (rh r <> rl r -> exists x, o = Some x /\
         (Rabs ((rc r - ro r) / (rh r - rl r)) <= bpow radix2 960 -> accurate 4 1 x ((rc r - ro r) / (rh r - rl r)))).
  Proof.
    intros W H. destruct (C53_bop c bs H) as (os & R & LN & X). exists os. split; [exact R|]. split; [exact LN|].
    intros i b o Hb Ho r. specialize (X i b Hb). rewrite Ho in X. apply some_eq in X. subst o.
    rewrite Forall_forall in W. destruct (W b (nth_error_In _ _ Hb)) as (op & h & l & cl & E1 & E2 & E3 & E4 & T1 & T2 & T3 & T4).
    subst r. unfold real_bar. rewrite E1, E2, E3, E4. cbn [rh rl rc ro value_of]. rewrite (eq_numbers h l (proj1 T2) (proj1 T3)).
    destruct (Reqb_spec (B2R h) (B2R l)) as [Q|Q]; (split; [intros Q'|intros Q']); try reflexivity; try contradiction.
    eexists. split; [reflexivity|]. intros B. destruct (sub_accurate _ _ T4 T1) as [A1 _]. destruct (sub_accurate _ _ T2 T3) as [A2 _].
    exact (proj1 (quotient_accurate _ _ _ _ _ A1 A2 ltac:(lia) ltac:(lra) B)).
  Qed.

  Theorem C123_donchian len c bs : (1 <= len)%nat -> Forall moderate_bar bs -> fresh_over c bs ->
    exists os, run_new (don_new len) don_step c (ticks (List.length bs)) = Ok os /\ List.length os = List.length bs /\
    forall i o, nth_error os i = Some o ->
      match full_window len (firstn (S i) (map real_bar bs)) with
      | None => o = (None, None, None)
      | Some w => exists u m l, o = (Some u, Some m, Some l) /\ is_finite u = true /\ is_finite l = true /\
          is_max (B2R u) (map rh w) /\ is_min (B2R l) (map rl w) /\ accurate 2 1 m ((B2R u + B2R l) / 2)
      end.
  Proof.
    intros L W H. rewrite (don_run len c bs L H). eexists; split; [reflexivity|]. split; [apply length_each_prefix|].
    intros i o Ho. apply nth_each in Ho. destruct Ho as [Hi ->].
    destruct (nth_error bs i) as [b|] eqn:Hb; [|apply nth_error_None in Hb; lia].
    pose proof (extrema_moderate len bs i b L W Hb) as X. unfold don_out.
    destruct (full_window len (firstn (S i) (map real_bar bs))) as [w|].
    - destruct X as (u & l & -> & -> & Mu & Ml & MU & ML).
      exists u, (fdiv (fadd u l) (@fZ f64 N123 2)), l. split; [reflexivity|]. split; [apply Mu|]. split; [apply Ml|]. split; [exact MU|]. split; [exact ML|].
      destruct Mu as [Fu Bu], Ml as [Fl Bl]. assert (Bu' : Rabs (B2R u) <= INR 1 * bpow radix2 900) by (cbn [INR]; lra). assert (Bl' : Rabs (B2R l) <= INR 1 * bpow radix2 900) by (cbn [INR]; lra).
      destruct (plus_bounded log10 1 1 900 u l Fu Fl ltac:(cbn; lia) ltac:(lia) Bu' Bl') as [F M]. destruct (plus_rel u l F) as (_ & _ & E).
      assert (A : accurate 1 0 (fadd u l) (B2R u + B2R l)). { split; [exact F|]. rewrite grown_1. cbn [INR]. rewrite Rmult_0_l, Rplus_0_r. exact E. }
      destruct (f64_ofZ_correct 2) as [V2 F2]; [cbn; lia|]. change (IZR 2) with 2 in V2.
      pose proof (over_accurate _ _ (f64_ofZ 2) _ A ltac:(lia)) as O. rewrite V2 in O. refine (proj1 (O ltac:(lra) _)).
      unfold Rdiv. rewrite Rabs_mult, (Rabs_pos_eq (/ 2)) by lra. apply Rle_trans with (bpow radix2 900); [|apply bpow_le; lia].
      pose proof (Rabs_triang (B2R u) (B2R l)). lra.
    - destruct X as [-> ->]. reflexivity.
  Qed.

  Theorem C123_williams len c src vs bs : (1 <= len)%nat -> List.length vs = List.length bs ->
    Forall moderate vs -> Forall moderate_bar bs -> feeds c src (map Some vs) -> fresh_over c bs ->
    exists os, run_new (wpr_new src len) wpr_step c (ticks (List.length bs)) = Ok os /\ List.length os = List.length bs /\
    forall i v o, nth_error vs i = Some v -> nth_error os i = Some o ->
      match full_window len (firstn (S i) (map real_bar bs)) with
      | None => o = None
      | Some w => exists u l, is_max u (map rh w) /\ is_min l (map rl w) /\
          (u = l -> o = None) /\
          (u <> l -> exists x, o = Some x /\ (Rabs ((B2R v - u) / (u - l)) <= bpow radix2 960 -> accurate 5 101 x (100 * ((B2R v - u) / (u - l)))))
      end.
  Proof.
    intros L LN WV W HF H. assert (LN' : List.length (map Some vs) = List.length bs) by (rewrite map_length; exact LN).
    destruct (C52_williams len c src _ bs L LN' HF H) as (us & ls & os & R1 & R2 & R3 & E).
    exists os. split; [exact R3|]. pose proof (fresh_c_index _ _ H) as Z.
    rewrite (makes_run _ _ _ _ c _ (highest_makes len L) Logic.I), Z in R1. rewrite (makes_run _ _ _ _ c _ (lowest_makes len L) Logic.I), Z in R2.
    injection R1 as <-. injection R2 as <-.
    split; [subst os; unfold zip3, zip; rewrite map_length, !combine_length, !length_each_prefix, !map_length; lia|].
    intros i v o Hv Ho. assert (Li : (i < List.length bs)%nat) by (rewrite <- LN; apply nth_error_Some; rewrite Hv; discriminate).
    destruct (nth_error bs i) as [b|] eqn:Hb; [|apply nth_error_None in Hb; lia].
    subst os. unfold zip3, zip in Ho. rewrite nth_error_map in Ho.
    rewrite (nth_error_combine _ _ i (Some v, highest_out len 0 (firstn (S i) (map b_high bs))) (lowest_out len 0 (firstn (S i) (map b_low bs)))) in Ho.
    2:{ apply nth_error_combine; [apply map_nth_error, Hv|]. apply nth_error_each_prefix. rewrite map_length. exact Li. }
    2:{ apply nth_error_each_prefix. rewrite map_length. exact Li. }
    cbn [option_map fst snd] in Ho. apply some_eq in Ho. subst o. rewrite !firstn_map.
    pose proof (extrema_moderate len bs i b L W Hb) as X. rewrite firstn_map in X. destruct (full_window len (map real_bar (firstn (S i) bs))) as [w|].
    2:{ destruct X as [X1 X2]. rewrite X1. reflexivity. }
    destruct X as (u & l & -> & -> & Mu & Ml & MU & ML). exists (B2R u), (B2R l). split; [exact MU|]. split; [exact ML|].
    rewrite Forall_forall in WV. pose proof (WV v (nth_error_In _ _ Hv)) as Mv.
    destruct (sub_accurate _ _ Mu Ml) as [A1 B1]. destruct (sub_accurate _ _ Mv Mu) as [A2 _].
    rewrite (eq_zero _ (proj1 A1)). destruct (Reqb_spec (B2R (fsub u l)) 0) as [Q|Q].
    { split; [reflexivity|]. intros Q'. exfalso. refine (accurate_nonzero _ _ _ (le_n 1) A1 _ Q). lra. }
    split. { intros Q'. exfalso. apply Q. replace (B2R u - B2R l) with 0 in A1 by lra. exact (accurate_zero _ _ A1). }
    intros Q'. eexists. split; [reflexivity|]. intros B.
    destruct (quotient_accurate _ _ _ _ _ A2 A1 ltac:(lia) ltac:(lra) B) as [A3 B3].
    exact (proj1 (proj2 (times_accurate _ _ _ _ A3 (hundred_times _ B3)))).
  Qed.

  Theorem C123_stoch len c vs bs : (1 <= len)%nat -> c_index c = 0%nat -> List.length vs = List.length bs -> Forall moderate vs -> Forall moderate_bar bs ->
    exists os, run_new (stoch_new len) stoch_step c (map (fun vb => (Some (fst vb), b_high (snd vb), b_low (snd vb))) (combine vs bs)) = Ok os /\ List.length os = List.length bs /\
    forall i v o, nth_error vs i = Some v -> nth_error os i = Some o ->
      match full_window len (firstn (S i) (map real_bar bs)) with
      | None => o = None
      | Some w => exists u l, is_max u (map rh w) /\ is_min l (map rl w) /\
          (u = l -> o = before None os i) /\
          (u <> l -> exists x, o = Some x /\
             (Rabs (100 * (B2R v - l) / (u - l)) <= bpow radix2 960 -> accurate 5 1 x (100 * (B2R v - l) / (u - l))))
      end.
  Proof.
    intros L Z LN WV W. set (xs := map _ (combine vs bs)).
    destruct (C23_stoch len c xs L) as (os & hs & ls & R1 & R2 & R3 & LO & X). exists os. split; [exact R1|].
    assert (LX : List.length xs = List.length bs) by (unfold xs; rewrite map_length, combine_length; lia).
    split; [rewrite LO; exact LX|].
    assert (CH : map h_of xs = map b_high bs /\ map l_of xs = map b_low bs).
    { unfold xs. rewrite !map_map. clear -LN. revert vs LN. induction bs as [|b bs IH]; intros [|v vs] LN; try discriminate LN; [split; reflexivity|].
      injection LN as LN. destruct (IH vs LN) as [I1 I2]. cbn [combine map]. unfold h_of, l_of in *. cbn [fst snd] in *. rewrite I1, I2. split; reflexivity. }
    destruct CH as [C1 C2]. rewrite C1, (makes_run _ _ _ _ c _ (highest_makes len L) Logic.I), Z in R2. rewrite C2, (makes_run _ _ _ _ c _ (lowest_makes len L) Logic.I), Z in R3.
    injection R2 as <-. injection R3 as <-.
    intros i v o Hv Ho. assert (Li : (i < List.length bs)%nat) by (rewrite <- LN; apply nth_error_Some; rewrite Hv; discriminate).
    destruct (nth_error bs i) as [b|] eqn:Hb; [|apply nth_error_None in Hb; lia].
    assert (Hx : nth_error xs i = Some (Some v, b_high b, b_low b)).
    { unfold xs. rewrite nth_error_map, (nth_error_combine _ _ i v b Hv Hb). reflexivity. }
    specialize (X i _ Hx). rewrite Ho in X. apply some_eq in X. rewrite !nth_error_each_prefix in X by (rewrite map_length; exact Li).
    cbn [fst snd join] in X. subst o. rewrite !firstn_map.
    pose proof (extrema_moderate len bs i b L W Hb) as Y. rewrite firstn_map in Y. destruct (full_window len (map real_bar (firstn (S i) bs))) as [w|].
    2:{ destruct Y as [X1 X2]. rewrite X1. reflexivity. }
    destruct Y as (u & l & -> & -> & Mu & Ml & MU & ML). exists (B2R u), (B2R l). split; [exact MU|]. split; [exact ML|].
    rewrite Forall_forall in WV. pose proof (WV v (nth_error_In _ _ Hv)) as Mv.
    destruct (sub_accurate _ _ Mu Ml) as [A1 B1]. destruct (sub_accurate _ _ Mv Ml) as [A2 B2].
    rewrite (eq_zero _ (proj1 A1)). destruct (Reqb_spec (B2R (fsub u l)) 0) as [Q|Q].
    { split; [reflexivity|]. intros Q'. exfalso. refine (accurate_nonzero _ _ _ (le_n 1) A1 _ Q). lra. }
    split. { intros Q'. exfalso. apply Q. replace (B2R u - B2R l) with 0 in A1 by lra. exact (accurate_zero _ _ A1). }
    intros Q'. eexists. split; [reflexivity|]. intros B.
    destruct (times_accurate _ _ _ _ A2 (hundred_times _ (bpow_901 _ B2))) as (A3 & _ & _).
    exact (proj1 (quotient_accurate _ _ _ _ _ A3 A1 ltac:(lia) ltac:(lra) B)).
  Qed.

  (** Tr, on bars whose low does not exceed their high. *)
  Definition real_range (prev : option rbar5) (r : rbar5) : R :=
    match prev with Some p => Rmax (Rmax (rh r - rl r) (Rabs (rh r - rc p))) (Rabs (rl r - rc p)) | None => rh r - rl r end.
  Theorem C123_tr na c bs : Forall moderate_bar bs -> Forall (fun b => rl (real_bar b) <= rh (real_bar b)) bs -> fresh_over c bs ->
    exists os, run tr_step c na (ticks (List.length bs)) = Ok os /\ List.length os = List.length bs /\
    forall i b o, nth_error bs i = Some b -> nth_error os i = Some o ->
      match i with
      | O => if na then exists x, o = Some x /\ accurate 1 0 x (rh (real_bar b) - rl (real_bar b)) else o = None
      | S j => exists p x, nth_error bs j = Some p /\ o = Some x /\ accurate 1 0 x (real_range (Some (real_bar p)) (real_bar b))
      end.
  Proof.
    intros W O H. assert (HL : Forall has_hl bs) by exact (whole_hl _ _ _ (moderate_whole _ W)).
    destruct (C24_tr na c bs H HL) as (os & R & LN & X). exists os. split; [exact R|]. split; [exact LN|]. intros i b o Hb Ho.
    rewrite Forall_forall in W, O. pose proof (O b (nth_error_In _ _ Hb)) as LH. destruct (W b (nth_error_In _ _ Hb)) as (op & h & l & cl & E1 & E2 & E3 & E4 & T1 & T2 & T3 & T4).
    specialize (X i b h l Hb E2 E3). rewrite Ho in X. apply some_eq in X. subst o.
    assert (RH : rh (real_bar b) = B2R h) by (unfold real_bar; cbn [rh]; rewrite E2; reflexivity). assert (RL : rl (real_bar b) = B2R l) by (unfold real_bar; cbn [rl]; rewrite E3; reflexivity).
    rewrite RH, RL in LH. pose proof (proj1 (sub_accurate _ _ T2 T3)) as A0. destruct i as [|j].
    - cbn [tr_spec]. destruct na; [|reflexivity]. eexists. split; [reflexivity|]. rewrite RH, RL. exact A0.
    - destruct (nth_error bs j) as [p|] eqn:Hp.
      2:{ apply nth_error_None in Hp. assert (S j < List.length bs)%nat by (apply nth_error_Some; rewrite Hb; discriminate). lia. }
      destruct (W p (nth_error_In _ _ Hp)) as (po & ph & pl & pc & F1 & F2 & F3 & F4 & _ & _ & _ & M4). exists p.
      assert (RC : rc (real_bar p) = B2R pc) by (unfold real_bar; cbn [rc]; rewrite F4; reflexivity).
      assert (TS : tr_spec na (Some p) h l = Some (fmax (fmax (fsub h l) (fabs (fsub h pc))) (fabs (fsub l pc)))).
      { destruct p as [x1 x2 x3 x4 x5]. cbn [b_open b_high b_low b_close] in F1, F2, F3, F4. rewrite F2, F3, F4. reflexivity. }
      rewrite TS. eexists. split; [reflexivity|]. split; [reflexivity|]. unfold real_range. rewrite RH, RL, RC.
      pose proof (abs_accurate _ _ _ (proj1 (sub_accurate _ _ T2 M4))) as A1. pose proof (abs_accurate _ _ _ (proj1 (sub_accurate _ _ T3 M4))) as A2.
      apply max_accurate; [apply max_accurate; [exact A0|exact A1|lra|apply Rabs_pos]|exact A2| |apply Rabs_pos]. eapply Rle_trans; [apply Rabs_pos|apply Rmax_r].
  Qed.

  (** Averaged prices, when the prices are not negative. *)
  Definition real_price (k : src_kind) (r : rbar5) : option R :=
    match k with
    | SOHLC4 => Some ((ro r + rh r + rl r + rc r) / 4) | SHLC3 => Some ((rh r + rl r + rc r) / 3) | SHL2 => Some ((rh r + rl r) / 2)
    | _ => None
    end.
  Definition not_negative (r : rbar5) : Prop := 0 <= ro r /\ 0 <= rh r /\ 0 <= rl r /\ 0 <= rc r.
  Lemma mean_of a j (x : f64) r k : accurate a 0 x r -> (a <= 10)%nat -> 0 <= r -> (2 <= k <= 4)%Z -> (j <= 4)%nat -> r <= INR j * bpow radix2 900 -> accurate (S a) 1 (fdiv x (fZ k)) (r / IZR k).
  Proof.
    intros A La Pr K Lj B. destruct (f64_ofZ_correct k) as [V F]; [lia|]. change (@fZ f64 N123 k) with (f64_ofZ k).
    assert (2 <= IZR k) by (apply IZR_le; lia). pose proof (over_accurate _ _ (f64_ofZ k) _ A La) as O. rewrite V in O. refine (proj1 (O ltac:(lra) _)).
    assert (Q : 0 <= r / IZR k) by (apply Rmult_le_pos; [exact Pr|apply Rlt_le, Rinv_0_lt_compat; lra]). rewrite (Rabs_pos_eq _ Q).
    apply Rle_trans with r. { apply (Rmult_le_reg_r (IZR k)); [lra|]. unfold Rdiv. rewrite Rmult_assoc, Rinv_l by lra. nra. }
    eapply Rle_trans; [exact B|]. apply Rle_trans with (bpow radix2 2 * bpow radix2 900); [|rewrite <- bpow_plus; apply bpow_le; lia].
    apply Rmult_le_compat_r; [apply bpow_ge_0|]. apply le_INR in Lj. cbn in Lj. cbn. lra.
  Qed.
  Theorem C123_source k c bs : Forall moderate_bar bs -> Forall (fun b => not_negative (real_bar b)) bs -> fresh_over c bs -> plain k = false ->
    exists os, run (src_step k) c tt (ticks (List.length bs)) = Ok os /\ List.length os = List.length bs /\
    forall i b, nth_error bs i = Some b -> exists x r, nth_error os i = Some (Some x) /\ real_price k (real_bar b) = Some r /\ accurate 4 1 x r.
  Proof.
    intros W NN H K. rewrite Forall_forall in W, NN. exists (map (price_of k) bs). split; [|split; [apply map_length|]].
    - apply (C46_src k c bs H). right. apply Forall_forall. intros b Hb. destruct (W b Hb) as (o & h & l & cl & E1 & E2 & E3 & E4 & _).
      destruct k; try discriminate K; unfold price_of; rewrite ?E1, E2, E3, ?E4; discriminate.
    - intros i b Hb. destruct (W b (nth_error_In _ _ Hb)) as (o & h & l & cl & E1 & E2 & E3 & E4 & M1 & M2 & M3 & M4).
      destruct (NN b (nth_error_In _ _ Hb)) as (P1 & P2 & P3 & P4). unfold real_bar in *. cbn [ro rh rl rc] in *. rewrite E1, E2, E3, E4 in *. cbn [value_of] in *.
      rewrite nth_error_map, Hb. cbn [option_map].
      assert (B1 : forall x, moderate x -> Rabs (B2R x) <= INR 1 * bpow radix2 900) by (intros x M; cbn [INR]; rewrite Rmult_1_l; apply M).
      assert (B2 : forall x, moderate x -> B2R x <= bpow radix2 900) by (intros x M; eapply Rle_trans; [apply Rle_abs|apply M]).
      pose proof (B2 _ M1). pose proof (B2 _ M2). pose proof (B2 _ M3). pose proof (B2 _ M4).
      destruct k; try discriminate K; unfold price_of; rewrite ?E1, E2, E3, ?E4; unfold real_price; cbn [ro rh rl rc]; (eexists; eexists; split; [reflexivity|]; split; [reflexivity|]).
      + destruct (add_accurate 1 0 _ h _ (exact_accurate _ (proj1 M1)) P1 M2 P2 ltac:(lia) (B1 _ M1)) as [X1 Y1].
        destruct (add_accurate 2 1 _ l _ X1 ltac:(lra) M3 P3 ltac:(lia) Y1) as [X2 Y2]. destruct (add_accurate 3 2 _ cl _ X2 ltac:(lra) M4 P4 ltac:(lia) Y2) as [X3 Y3].
        apply (mean_of 3 4); [exact X3|lia|lra|lia|lia|]. cbn [INR]. lra.
      + destruct (add_accurate 1 0 _ l _ (exact_accurate _ (proj1 M2)) P2 M3 P3 ltac:(lia) (B1 _ M2)) as [X1 Y1]. destruct (add_accurate 2 1 _ cl _ X1 ltac:(lra) M4 P4 ltac:(lia) Y1) as [X2 Y2].
        apply (accurate_more 3 1); [lia|lia|]. apply (mean_of 2 3); [exact X2|lia|lra|lia|lia|]. cbn [INR]. lra.
      + destruct (add_accurate 1 0 _ l _ (exact_accurate _ (proj1 M2)) P2 M3 P3 ltac:(lia) (B1 _ M2)) as [X1 Y1].
        apply (accurate_more 2 1); [lia|lia|]. apply (mean_of 1 2); [exact X1|lia|lra|lia|lia|]. cbn [INR]. lra.
  Qed.
End Ops.

(** The bounds above, in plain figures. *)
Theorem C123_plain a k y r : (a <= 5)%nat -> (k <= 101)%nat -> accurate a k y r -> Rabs (B2R y - r) <= bpow radix2 (-49) * Rabs r + bpow radix2 (-1067).
Proof.
  intros La Lk A. destruct (accurate_more a k 5 101 y r La Lk A) as [_ H]. eapply Rle_trans; [exact H|]. apply Rplus_le_compat.
  - apply Rmult_le_compat_r; [apply Rabs_pos|]. eapply Rle_trans; [apply grown_linear; cbn; lia|]. unfold u64. change (-49)%Z with (4 + -53)%Z. rewrite bpow_plus.
    pose proof (bpow_gt_0 radix2 (-53)). rewrite INR_IZR_INZ. change (Z.of_nat 5) with 5%Z. change (bpow radix2 4) with 16. lra.
  - unfold eta64. apply Rle_trans with (bpow radix2 7 * eta64); [apply Rmult_le_compat_r; [apply Rlt_le, eta64_pos|rewrite INR_IZR_INZ; change (Z.of_nat 101) with 101%Z; change (bpow radix2 7) with 128; lra]|].
    unfold eta64. rewrite <- bpow_plus. apply bpow_le. cbn. lia.
Qed.

(** Decimal prices (in hundredths). *)
Lemma le_test (x y : f64) : is_finite x = true -> is_finite y = true -> Bleb x y = true -> B2R x <= B2R y.
Proof. intros F G B. rewrite to_xr_le, (to_xr_finite _ F), (to_xr_finite _ G) in B. change (fleb (Fin (B2R x)) (Fin (B2R y)) = true) in B. rewrite fin_le in B. destruct (Rleb_spec (B2R x) (B2R y)); [assumption|discriminate B]. Qed.
Lemma moderate_test (x : f64) : is_finite x = true -> Bleb (Babs x) (f64_ofZ (2 ^ 40)) = true -> moderate x.
Proof.
  intros F B. split; [exact F|]. destruct (f64_ofZ_correct (2 ^ 40)) as [V G]; [cbn; lia|].
  apply le_test in B; [|rewrite is_finite_Babs; exact F|exact G]. rewrite V, B2R_Babs in B. eapply Rle_trans; [exact B|].
  change (IZR (2 ^ 40)) with (bpow radix2 40). apply bpow_le. lia.
Qed.
Definition d123 (num : Z) : f64 := Bdiv mode_NE (f64_ofZ num) (f64_ofZ 100).
Definition bar123 (o h l c : Z) : bar f64 := mkBar (Some (d123 o)) (Some (d123 h)) (Some (d123 l)) (Some (d123 c)) (Some (d123 100)).
Definition bars123 : list (bar f64) := [bar123 105 111 100 107; bar123 107 113 103 110; bar123 110 110 91 95].
Example C123_holds : Forall moderate_bar bars123 /\ Forall (fun b => not_negative (real_bar b)) bars123 /\ Forall (fun b => rl (real_bar b) <= rh (real_bar b)) bars123  /\
  (exists c : ctx f64, fresh_over c bars123).
Proof.
  assert (Z0 : forall x : f64, is_finite x = true -> Bleb (f64_ofZ 0) x = true -> 0 <= B2R x).
  { intros x F B. destruct (f64_ofZ_correct 0) as [V G]; [cbn; lia|]. apply le_test in B; [|exact G|exact F]. rewrite V in B. exact B. }
  split; [|split; [|split]].
  - repeat apply Forall_cons; [..|apply Forall_nil]; (eexists; eexists; eexists; eexists; split; [reflexivity|]; split; [reflexivity|]; split; [reflexivity|]; split; [reflexivity|]; split; [|split; [|split]]; apply moderate_test; vm_compute; reflexivity).
  - repeat apply Forall_cons; [..|apply Forall_nil]; (split; [|split; [|split]]); apply Z0; vm_compute; reflexivity.
  - repeat apply Forall_cons; [..|apply Forall_nil]; apply le_test; vm_compute; reflexivity.
  - destruct (ctx_over_fresh bars123) as (c & _ & H & _); [discriminate|]. exists c. exact H.
Qed.
