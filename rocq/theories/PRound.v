(** * PRound: rounding errors of f64 operations and of running computations. *)
From Flocq Require Import Core IEEE754.BinarySingleNaN.
From Flocq Require Import Relative.
From Verif Require Export IEEE PTa4 SpecReal.
From Coq Require Import Lra Psatz.
Local Open Scope R_scope.

(** Unit roundoff and the underflow error. *)
Definition u64 : R := bpow radix2 (-53).
Definition eta64 : R := bpow radix2 (-1075).

Section Ops.
  Notation fexp64 := (SpecFloat.fexp 53 1024).
  Notation rnd r := (round radix2 fexp64 (round_mode mode_NE) r).
  Lemma rnd_err r : Rabs (rnd r - r) <= u64 * Rabs r + eta64.
  Proof.
    destruct (relative_error_N_FLT'_ex radix2 (-1074) 53 eq_refl (fun x => negb (Z.even x)) r) as (e & t & He & Ht & _ & E).
    change (FLT_exp (-1074) 53) with fexp64 in E. change (round_mode mode_NE) with (Znearest (fun x => negb (Z.even x))).
    rewrite E. replace (r * (1 + e) + t - r) with (e * r + t) by ring.
    eapply Rle_trans; [apply Rabs_triang|]. rewrite Rabs_mult. apply Rplus_le_compat.
    - apply Rmult_le_compat_r; [apply Rabs_pos|]. eapply Rle_trans; [exact He|].
      unfold u_ro. assert (U : / 2 * bpow radix2 (- (53) + 1) = u64).
      { unfold u64. change (-(53) + 1)%Z with (-53 + 1)%Z. rewrite bpow_plus. cbn. lra. }
      rewrite U. assert (0 < u64) by apply bpow_gt_0.
      apply Rmult_le_reg_r with (1 + u64); [lra|]. unfold Rdiv. rewrite Rmult_assoc, Rinv_l by lra. nra.
    - eapply Rle_trans; [exact Ht|]. unfold eta64. change (-1075)%Z with (-1074 + -1)%Z. rewrite bpow_plus. cbn. lra.
  Qed.
  Lemma rnd_fits r : Rabs r <= bpow radix2 1022 -> Rabs (rnd r) < bpow radix2 1024.
  Proof.
    intros H. pose proof (rnd_err r) as E. assert (A : Rabs (rnd r) <= Rabs (rnd r - r) + Rabs r).
    { replace (rnd r) with ((rnd r - r) + r) at 1 by ring. apply Rabs_triang. }
    assert (U : u64 <= 1) by (apply (bpow_le radix2 (-53) 0); lia).
    assert (T : eta64 <= bpow radix2 1022) by (apply bpow_le; lia).
    assert (B : bpow radix2 1024 = 4 * bpow radix2 1022) by (change 1024%Z with (2 + 1022)%Z; rewrite bpow_plus; cbn; lra).
    assert (P : 0 < bpow radix2 1022) by apply bpow_gt_0. pose proof (Rabs_pos r). nra.
  Qed.
  Definition near (x : f64) (r : R) : Prop := is_finite x = true /\ Rabs (B2R x - r) <= u64 * Rabs r + eta64.
  Lemma plus_near (x y : f64) : is_finite x = true -> is_finite y = true -> Rabs (B2R x + B2R y) <= bpow radix2 1022 ->
    near (Bplus mode_NE x y) (B2R x + B2R y).
  Proof.
    intros Fx Fy H. pose proof (Bplus_correct 53 1024 _ _ mode_NE x y Fx Fy) as C.
    rewrite Rlt_bool_true in C by (apply rnd_fits; exact H). destruct C as (E & Fz & _).
    split; [exact Fz|]. rewrite E. apply rnd_err.
  Qed.
  Lemma minus_near (x y : f64) : is_finite x = true -> is_finite y = true -> Rabs (B2R x - B2R y) <= bpow radix2 1022 ->
    near (Bminus mode_NE x y) (B2R x - B2R y).
  Proof.
    intros Fx Fy H. pose proof (Bminus_correct 53 1024 _ _ mode_NE x y Fx Fy) as C.
    rewrite Rlt_bool_true in C by (apply rnd_fits; exact H). destruct C as (E & Fz & _).
    split; [exact Fz|]. rewrite E. apply rnd_err.
  Qed.
  Lemma mult_near (x y : f64) : is_finite x = true -> is_finite y = true -> Rabs (B2R x * B2R y) <= bpow radix2 1022 ->
    near (Bmult mode_NE x y) (B2R x * B2R y).
  Proof.
    intros Fx Fy H. pose proof (Bmult_correct 53 1024 _ _ mode_NE x y) as C.
    rewrite Rlt_bool_true in C by (apply rnd_fits; exact H). destruct C as (E & Fz & _).
    split; [rewrite Fz, Fx, Fy; reflexivity|]. rewrite E. apply rnd_err.
  Qed.
  Lemma div_near (x y : f64) : is_finite x = true -> is_finite y = true -> B2R y <> 0 -> Rabs (B2R x / B2R y) <= bpow radix2 1022 ->
    near (Bdiv mode_NE x y) (B2R x / B2R y).
  Proof.
    intros Fx Fy N H. pose proof (Bdiv_correct 53 1024 _ _ mode_NE x y N) as C.
    rewrite Rlt_bool_true in C by (apply rnd_fits; exact H). destruct C as (E & Fz & _).
    split; [rewrite Fz; exact Fx|]. rewrite E. apply rnd_err.
  Qed.
End Ops.

(** Magnitudes for which neither overflow nor underflow matters. *)
Definition magnitude (M : R) : Prop := bpow radix2 (-900) <= M <= bpow radix2 900.
Lemma magnitude_facts M : magnitude M -> 0 < M /\ 0 < u64 /\ u64 <= / 2 ^ 53 /\ 0 <= eta64 <= u64 * M / 1000 /\ 2 ^ 100 * M <= bpow radix2 1022.
Proof.
  intros [A B]. assert (P : 0 < bpow radix2 (-900)) by apply bpow_gt_0. assert (U : 0 < u64) by apply bpow_gt_0.
  split; [lra|]. split; [exact U|]. split; [unfold u64; cbn; lra|]. split.
  - split; [left; apply bpow_gt_0|]. apply Rmult_le_reg_r with 1000; [lra|]. unfold Rdiv. rewrite Rmult_assoc, Rinv_l by lra.
    rewrite Rmult_1_r. apply Rle_trans with (u64 * bpow radix2 (-900)); [|apply Rmult_le_compat_l; lra].
    unfold u64, eta64. rewrite <- bpow_plus. apply Rle_trans with (bpow radix2 (-1075) * bpow radix2 10).
    + apply Rmult_le_compat_l; [left; apply bpow_gt_0|]. cbn. lra.
    + rewrite <- bpow_plus. apply bpow_le. lia.
  - apply Rle_trans with (2 ^ 100 * bpow radix2 900); [apply Rmult_le_compat_l; [apply pow_le; lra|exact B]|].
    replace (2 ^ 100) with (bpow radix2 100) by (rewrite pow_IZR; reflexivity).
    rewrite <- bpow_plus. apply bpow_le. lia.
Qed.
Lemma Rabs_le_iff x a : Rabs x <= a <-> - a <= x <= a.
Proof. split; [intros H; unfold Rabs in H; destruct (Rcase_abs x); lra|apply Rabs_le]. Qed.

(** Finite inputs of magnitude at most [M]. *)
Definition bounded_by (M : R) (xs : list f64) : Prop := Forall (fun x => is_finite x = true /\ Rabs (B2R x) <= M) xs.

(** One step of exponential smoothing, on real numbers: [ah], [bh], [eh] are
    the computed weight, complement and previous value. *)
Lemma smooth_step_err u eta M a ah bh v e eh p1 p2 :
  0 < u <= / 2 ^ 53 -> 0 <= eta <= u * M / 1000 -> 0 < M -> 0 < a <= 1 ->
  Rabs (ah - a) <= 2 * u * a -> Rabs (bh - (1 - ah)) <= 2 * u -> Rabs v <= M -> Rabs e <= M -> Rabs (eh - e) <= M ->
  Rabs (p1 - ah * v) <= u * Rabs (ah * v) + eta -> Rabs (p2 - bh * eh) <= u * Rabs (bh * eh) + eta ->
  Rabs (p1 + p2) <= 4 * M /\
  Rabs (p1 + p2 - (a * v + (1 - a) * e)) <= (1 - a) * Rabs (eh - e) + 14 * u * M /\
  Rabs (ah * v) <= 4 * M /\ Rabs (bh * eh) <= 4 * M.
Proof.
  intros U T PM A HA HB HV HE HD H1 H2.
  assert (U' : u <= / 1000000) by (replace (/ 2 ^ 53) with (/ 9007199254740992) in U by (f_equal; ring); lra).
  apply Rabs_le_iff in HA, HB.
  assert (B3 : Rabs (bh - (1 - a)) <= 4 * u) by (apply Rabs_le_iff; nra).
  assert (EH : Rabs eh <= 2 * M).
  { replace eh with ((eh - e) + e) by ring. eapply Rle_trans; [apply Rabs_triang|]. lra. }
  assert (AV : Rabs (ah * v) <= (1 + 2 * u) * M).
  { rewrite Rabs_mult. apply Rmult_le_compat; try apply Rabs_pos; [apply Rabs_le_iff; nra|exact HV]. }
  assert (AV' : Rabs (ah * v - a * v) <= 2 * u * M).
  { replace (ah * v - a * v) with ((ah - a) * v) by ring. rewrite Rabs_mult. apply Rmult_le_compat; try apply Rabs_pos; [apply Rabs_le_iff; nra|exact HV]. }
  assert (BE : Rabs (bh * eh - (1 - a) * eh) <= 4 * u * (2 * M)).
  { replace (bh * eh - (1 - a) * eh) with ((bh - (1 - a)) * eh) by ring. rewrite Rabs_mult. apply Rmult_le_compat; try apply Rabs_pos; assumption. }
  assert (BE' : Rabs (bh * eh) <= (1 + 4 * u) * (2 * M)).
  { rewrite Rabs_mult. apply Rmult_le_compat; try apply Rabs_pos; [|exact EH]. apply Rabs_le_iff in B3. apply Rabs_le_iff. nra. }
  assert (PD : Rabs ((1 - a) * eh - (1 - a) * e) <= (1 - a) * Rabs (eh - e)).
  { replace ((1 - a) * eh - (1 - a) * e) with ((1 - a) * (eh - e)) by ring. rewrite Rabs_mult, (Rabs_pos_eq (1 - a)) by lra. lra. }
  assert (AE : Rabs (a * v + (1 - a) * e) <= M).
  { eapply Rle_trans; [apply Rabs_triang|]. rewrite !Rabs_mult, (Rabs_pos_eq a), (Rabs_pos_eq (1 - a)) by lra. nra. }
  assert (UM : 0 < u * M) by (apply Rmult_lt_0_compat; lra). assert (UM' : u * M <= M / 1000000) by nra.
  assert (UU : u * ((1 + 2 * u) * M) <= 11 / 10 * (u * M)) by nra.
  assert (UU' : u * ((1 + 4 * u) * (2 * M)) <= 21 / 10 * (u * M)) by nra.
  assert (P1 : Rabs (p1 - a * v) <= 32 / 10 * (u * M)).
  { replace (p1 - a * v) with ((p1 - ah * v) + (ah * v - a * v)) by ring. eapply Rle_trans; [apply Rabs_triang|].
    assert (u * Rabs (ah * v) <= u * ((1 + 2 * u) * M)) by (apply Rmult_le_compat_l; lra). lra. }
  assert (P2 : Rabs (p2 - (1 - a) * eh) <= 102 / 10 * (u * M)).
  { replace (p2 - (1 - a) * eh) with ((p2 - bh * eh) + (bh * eh - (1 - a) * eh)) by ring. eapply Rle_trans; [apply Rabs_triang|].
    assert (u * Rabs (bh * eh) <= u * ((1 + 4 * u) * (2 * M))) by (apply Rmult_le_compat_l; lra). lra. }
  assert (TOT : Rabs (p1 + p2 - (a * v + (1 - a) * e)) <= (1 - a) * Rabs (eh - e) + 14 * u * M).
  { replace (p1 + p2 - (a * v + (1 - a) * e)) with ((p1 - a * v) + ((p2 - (1 - a) * eh) + ((1 - a) * eh - (1 - a) * e))) by ring.
    eapply Rle_trans; [apply Rabs_triang|]. pose proof (Rabs_triang (p2 - (1 - a) * eh) ((1 - a) * eh - (1 - a) * e)). lra. }
  split; [|split; [exact TOT|split; nra]].
  replace (p1 + p2) with ((p1 + p2 - (a * v + (1 - a) * e)) + (a * v + (1 - a) * e)) by ring.
  eapply Rle_trans; [apply Rabs_triang|]. pose proof (Rabs_pos (eh - e)). nra.
Qed.

Section Smooth.
  Variable log10 : f64 -> f64.
  #[local] Instance NR : Num f64 := IEEE log10.
  Notation z64 := (@fZ f64 NR).
  Notation n64 := (@fnat f64 NR).

  Lemma fold_snoc {A B} (f : A -> B -> A) l x a : fold_left f (l ++ [x]) a = f (fold_left f l a) x.
  Proof. rewrite fold_left_app. reflexivity. Qed.
  Lemma sum_abs_bound M (xs : list f64) : bounded_by M xs -> Rabs (Rsum (map B2R xs)) <= INR (length xs) * M.
  Proof.
    induction 1 as [|x xs [_ Hx] _ IH]; [cbn; rewrite Rabs_R0; lra|]. cbn [map Rsum length]. rewrite S_INR.
    eapply Rle_trans; [apply Rabs_triang|]. lra.
  Qed.
  (** Adding up [n] values: the error is at most [3 n^2] units. *)
  Lemma sum_err M xs : magnitude M -> bounded_by M xs -> INR (length xs) <= 2 ^ 32 ->
    is_finite (fsum xs) = true /\ Rabs (B2R (fsum xs) - Rsum (map B2R xs)) <= 3 * u64 * (INR (length xs) * INR (length xs)) * M.
  Proof.
    intros HM. destruct (magnitude_facts _ HM) as (PM & U & U' & T & BIG). unfold fsum.
    induction xs as [|x xs IH] using rev_ind; intros B L; [cbn; split; [reflexivity|]; rewrite Rminus_0_r, Rabs_R0; lra|].
    apply Forall_app in B. destruct B as [B Bx]. inversion Bx as [|? ? [Fx Hx] _]; subst.
    rewrite app_length in L |- *. cbn [length] in L |- *. rewrite Nat.add_1_r, S_INR in *. set (n := INR (length xs)) in *.
    assert (N0 : 0 <= n) by apply pos_INR. destruct (IH B ltac:(lra)) as [Fs Es]. clear IH.
    rewrite fold_snoc, map_app, Rsum_app. cbn [map Rsum]. rewrite Rplus_0_r.
    pose proof (sum_abs_bound _ _ B) as AS. fold n in AS.
    change (fold_left (fun acc x0 : f64 => fadd acc x0) xs (z64 0)) with (fold_left (fun acc x0 : f64 => Bplus mode_NE acc x0) xs (z64 0)) in *.
    set (s := fold_left (fun acc x0 : f64 => Bplus mode_NE acc x0) xs (z64 0)) in *. set (S := Rsum (map B2R xs)) in *.
    assert (NU : u64 * (n * n) <= n / 1000000).
    { assert (u64 * n <= / 1000000); [|nra]. replace (2 ^ 32) with 4294967296 in L by ring. replace (/ 2 ^ 53) with (/ 9007199254740992) in U' by (f_equal; ring). nra. }
    assert (Bs : Rabs (B2R s + B2R x) <= (n + n / 100 + 1) * M).
    { replace (B2R s + B2R x) with ((B2R s - S) + (S + B2R x)) by ring. eapply Rle_trans; [apply Rabs_triang|].
      pose proof (Rabs_triang S (B2R x)). assert (3 * u64 * (n * n) * M <= 3 * (n / 1000000) * M) by nra. nra. }
    destruct (plus_near s x Fs Fx) as [Fz Ez].
    { eapply Rle_trans; [exact Bs|]. eapply Rle_trans; [|exact BIG]. replace (2 ^ 32) with 4294967296 in L by ring.
      apply Rmult_le_compat_r; [lra|]. replace (2 ^ 100) with 1267650600228229401496703205376 by ring. lra. }
    change (@fadd f64 NR s x) with (Bplus mode_NE s x).
    split; [exact Fz|].
    replace (B2R (Bplus mode_NE s x) - (S + B2R x)) with ((B2R (Bplus mode_NE s x) - (B2R s + B2R x)) + (B2R s - S)) by ring.
    eapply Rle_trans; [apply Rabs_triang|].
    assert (u64 * Rabs (B2R s + B2R x) <= u64 * ((n + n / 100 + 1) * M)) by (apply Rmult_le_compat_l; lra).
    assert (0 <= u64 * M) by nra. assert (0 <= n * (u64 * M)) by nra. nra.
  Qed.
  (** The mean of the first values. *)
  Lemma mean_err M xs n : magnitude M -> bounded_by M xs -> length xs = n -> (1 <= n)%nat -> INR n <= 2 ^ 32 -> (Z.of_nat n <= 2 ^ 53)%Z ->
    is_finite (fdiv (fsum xs) (n64 n)) = true /\ Rabs (B2R (fdiv (fsum xs) (n64 n)) - Rmean (map B2R xs)) <= (3 * INR n + 3) * u64 * M /\ Rabs (Rmean (map B2R xs)) <= M.
  Proof.
    intros HM B L N1 N2 N3. destruct (magnitude_facts _ HM) as (PM & U & U' & T & BIG).
    destruct (sum_err M xs HM B ltac:(rewrite L; exact N2)) as [Fs Es]. rewrite L in Es. unfold Rmean. replace (length (map B2R xs)) with n by (rewrite map_length; symmetry; exact L).
    destruct (f64_ofZ_correct (Z.of_nat n) ltac:(lia)) as [En Fn]. rewrite <- INR_IZR_INZ in En.
    pose proof (sum_abs_bound _ _ B) as AS. rewrite L in AS. set (S := Rsum (map B2R xs)) in *. set (s := fsum xs) in *.
    assert (P : 1 <= INR n) by (apply (le_INR 1); exact N1).
    assert (I : 0 < / INR n) by (apply Rinv_0_lt_compat; lra). assert (II : INR n * / INR n = 1) by (apply Rinv_r; lra).
    assert (D1 : Rabs (B2R s / INR n - S / INR n) <= 3 * u64 * INR n * M).
    { replace (B2R s / INR n - S / INR n) with ((B2R s - S) * / INR n) by (unfold Rdiv; ring). rewrite Rabs_mult, (Rabs_pos_eq (/ INR n)) by lra.
      apply Rle_trans with (3 * u64 * (INR n * INR n) * M * / INR n); [apply Rmult_le_compat_r; lra|]. right. field. lra. }
    assert (D2 : Rabs (S / INR n) <= M).
    { unfold Rdiv. rewrite Rabs_mult, (Rabs_pos_eq (/ INR n)) by lra. apply Rle_trans with (INR n * M * / INR n); [apply Rmult_le_compat_r; lra|]. right. field. lra. }
    assert (NU : 3 * u64 * INR n <= / 1000).
    { replace (2 ^ 32) with 4294967296 in N2 by ring. replace (/ 2 ^ 53) with (/ 9007199254740992) in U' by (f_equal; ring). nra. }
    assert (D3 : Rabs (B2R s / INR n) <= 2 * M).
    { replace (B2R s / INR n) with ((B2R s / INR n - S / INR n) + S / INR n) by ring. eapply Rle_trans; [apply Rabs_triang|]. nra. }
    destruct (div_near s (f64_ofZ (Z.of_nat n)) Fs Fn) as [Fz Ez]; [lra| |].
    { rewrite En. eapply Rle_trans; [exact D3|]. eapply Rle_trans; [|exact BIG]. apply Rmult_le_compat_r; [lra|].
      replace (2 ^ 100) with 1267650600228229401496703205376 by ring. lra. }
    rewrite En in Ez. change (@fdiv f64 NR s (n64 n)) with (Bdiv mode_NE s (f64_ofZ (Z.of_nat n))).
    split; [exact Fz|]. split; [|exact D2].
    replace (B2R (Bdiv mode_NE s (f64_ofZ (Z.of_nat n))) - S / INR n)
      with ((B2R (Bdiv mode_NE s (f64_ofZ (Z.of_nat n))) - B2R s / INR n) + (B2R s / INR n - S / INR n)) by ring.
    eapply Rle_trans; [apply Rabs_triang|].
    assert (u64 * Rabs (B2R s / INR n) <= u64 * (2 * M)) by (apply Rmult_le_compat_l; lra).
    assert (0 <= u64 * M) by nra. nra.
  Qed.
  (** The smoothed values: [a] is the exact weight, [al] the computed one. *)
  Lemma smooth_err M a (al : f64) vs : magnitude M -> bounded_by M vs -> 0 < a <= 1 ->
    is_finite al = true -> Rabs (B2R al - a) <= 2 * u64 * a -> 32 * u64 <= a ->
    forall e0 E0, is_finite e0 = true -> Rabs E0 <= M -> Rabs (B2R e0 - E0) <= 32 * u64 * M / a ->
    let e := fold_left (fun e v => fadd (fmul al v) (fmul (fsub (z64 1) al) e)) vs e0 in
    let E := fold_left (fun e v => a * v + (1 - a) * e) (map B2R vs) E0 in
    is_finite e = true /\ Rabs (B2R e - E) <= 32 * u64 * M / a /\ Rabs E <= M.
  Proof.
    intros HM B A FA HA A' . destruct (magnitude_facts _ HM) as (PM & U & U' & T & BIG).
    assert (BIG' : 4 * M <= bpow radix2 1022).
    { eapply Rle_trans; [|exact BIG]. apply Rmult_le_compat_r; [lra|]. replace (2 ^ 100) with 1267650600228229401496703205376 by ring. lra. }
    assert (B22 : 4 <= bpow radix2 1022) by (apply (bpow_le radix2 2 1022); lia).
    assert (U9 : u64 <= / 1000000) by (replace (/ 2 ^ 53) with (/ 9007199254740992) in U' by (f_equal; ring); lra).
    destruct (f64_ofZ_correct 1 ltac:(lia)) as [E1 F1]. change (f64_ofZ 1) with (z64 1) in *.
    pose proof (proj1 (Rabs_le_iff _ _) HA) as HA'.
    destruct (minus_near (z64 1) al F1 FA) as [Fb Eb].
    { rewrite E1. eapply Rle_trans; [|exact B22]. apply Rabs_le_iff. nra. }
    rewrite E1 in Eb. set (bl := Bminus mode_NE (z64 1) al) in *.
    assert (Eb' : Rabs (B2R bl - (1 - B2R al)) <= 2 * u64).
    { eapply Rle_trans; [exact Eb|]. assert (Rabs (1 - B2R al) <= 1 + 1 / 10) by (apply Rabs_le_iff; nra).
      assert (eta64 <= u64 / 10); [|nra]. unfold eta64, u64. apply Rmult_le_reg_r with 10; [lra|]. unfold Rdiv. rewrite Rmult_assoc, Rinv_l, Rmult_1_r by lra.
      apply Rle_trans with (bpow radix2 (-1075) * bpow radix2 10); [apply Rmult_le_compat_l; [left; apply bpow_gt_0|cbn; lra]|].
      rewrite <- bpow_plus. apply bpow_le. lia. }
    assert (K : 32 * u64 * M / a <= M).
    { unfold Rdiv. apply Rmult_le_reg_r with a; [lra|]. rewrite Rmult_assoc, Rinv_l by lra. nra. }
    induction B as [|v vs [Fv Hv] _ IH]; intros e0 E0 Fe HE HD; cbn [fold_left map]; [auto|].
    change (@fsub f64 NR (z64 1) al) with bl in *.
    change (@fmul f64 NR al v) with (Bmult mode_NE al v). change (@fmul f64 NR bl e0) with (Bmult mode_NE bl e0).
    assert (HD' : Rabs (B2R e0 - E0) <= M) by lra.
    assert (AV : Rabs (B2R al * B2R v) <= 4 * M).
    { rewrite Rabs_mult. apply Rmult_le_compat; try apply Rabs_pos; [apply Rabs_le_iff; nra|exact Hv]. }
    assert (EE : Rabs (B2R e0) <= 2 * M).
    { replace (B2R e0) with ((B2R e0 - E0) + E0) by ring. eapply Rle_trans; [apply Rabs_triang|]. lra. }
    assert (BE : Rabs (B2R bl * B2R e0) <= 4 * M).
    { rewrite Rabs_mult. replace (4 * M) with (2 * (2 * M)) by ring. apply Rmult_le_compat; try apply Rabs_pos; [|exact EE].
      apply Rabs_le_iff in Eb'. apply Rabs_le_iff. nra. }
    destruct (mult_near al v FA Fv ltac:(lra)) as [Fp1 Ep1]. destruct (mult_near bl e0 Fb Fe ltac:(lra)) as [Fp2 Ep2].
    destruct (smooth_step_err u64 eta64 M a (B2R al) (B2R bl) (B2R v) E0 (B2R e0) _ _ (conj U U') T PM A HA Eb' Hv HE HD' Ep1 Ep2) as (S1 & S2 & _ & _).
    destruct (plus_near _ _ Fp1 Fp2 ltac:(lra)) as [Fz Ez].
    change (@fadd f64 NR (Bmult mode_NE al v) (Bmult mode_NE bl e0)) with (Bplus mode_NE (Bmult mode_NE al v) (Bmult mode_NE bl e0)).
    apply IH; [exact Fz| |].
    - eapply Rle_trans; [apply Rabs_triang|]. rewrite !Rabs_mult, (Rabs_pos_eq a), (Rabs_pos_eq (1 - a)) by lra. nra.
    - set (s := B2R (Bmult mode_NE al v) + B2R (Bmult mode_NE bl e0)) in *. set (z := B2R (Bplus mode_NE _ _)) in *.
      replace (z - (a * B2R v + (1 - a) * E0)) with ((z - s) + (s - (a * B2R v + (1 - a) * E0))) by ring.
      eapply Rle_trans; [apply Rabs_triang|].
      assert (u64 * Rabs s <= u64 * (4 * M)) by (apply Rmult_le_compat_l; lra). assert (0 < u64 * M) by nra.
      assert ((1 - a) * Rabs (B2R e0 - E0) <= (1 - a) * (32 * u64 * M / a)) by (apply Rmult_le_compat_l; lra).
      assert ((1 - a) * (32 * u64 * M / a) = 32 * u64 * M / a - 32 * u64 * M) by (field; lra). lra.
  Qed.
  (** A smoothing weight of at most [2 / (len + 1)], computed with one rounding. *)
  Lemma ema_val_err M len a (al : f64) vs : magnitude M -> bounded_by M vs -> (2 <= len)%nat -> (Z.of_nat len <= 2 ^ 32)%Z ->
    is_finite al = true -> Rabs (B2R al - a) <= 2 * u64 * a -> 32 * u64 <= a -> 0 < a <= 2 / (INR len + 1) ->
    match Rsmooth a len (map B2R vs) with
    | None => ema_val al len vs = None
    | Some E => exists e, ema_val al len vs = Some e /\ is_finite e = true /\ Rabs (B2R e - E) <= 32 * u64 * M / a /\ Rabs E <= M
    end.
  Proof.
    intros HM B L L' FA HA A1 A2. destruct (magnitude_facts _ HM) as (PM & U & U' & T & BIG).
    unfold Rsmooth, ema_val. assert (ML : length (map B2R vs) = length vs) by apply map_length. rewrite ML. clear ML. destruct (Nat.eqb_spec len 1); [lia|].
    destruct (Nat.ltb_spec (length vs) len) as [S|S]; [reflexivity|].
    assert (P : 2 <= INR len) by (apply (le_INR 2); exact L).
    assert (A3 : a <= 1).
    { apply Rle_trans with (1 := proj2 A2). apply Rmult_le_reg_r with (INR len + 1); [lra|]. unfold Rdiv. rewrite Rmult_assoc, Rinv_l by lra. lra. }
    assert (BF : bounded_by M (firstn len vs)) by (apply Forall_forall; intros x I; apply firstn_In in I; revert x I; apply Forall_forall; exact B).
    eexists. split; [reflexivity|]. rewrite firstn_map, skipn_map.
    assert (IL : INR len <= 2 ^ 32).
    { rewrite INR_IZR_INZ. replace (2 ^ 32) with (IZR (2 ^ 32)) by (rewrite pow_IZR; reflexivity). apply IZR_le. exact L'. }
    destruct (mean_err M (firstn len vs) len HM BF) as (Fm & Em & Mm); [rewrite firstn_length; lia|lia|exact IL|lia|].
    apply smooth_err; try assumption; [|lra|].
    - apply Forall_forall; intros x I; apply skipn_In in I; revert x I; apply Forall_forall; exact B.
    - eapply Rle_trans; [exact Em|].
      assert (INR len + 1 <= 2 / a).
      { apply Rmult_le_reg_r with a; [lra|]. unfold Rdiv. rewrite Rmult_assoc, Rinv_l by lra.
        destruct A2 as [_ A2]. apply Rmult_le_compat_r with (r := INR len + 1) in A2; [|lra]. unfold Rdiv in A2. rewrite Rmult_assoc, Rinv_l in A2 by lra. lra. }
      replace (32 * u64 * M / a) with (16 * (u64 * M) * (2 / a)) by (unfold Rdiv; ring). assert (0 < u64 * M) by nra. nra.
  Qed.
End Smooth.
