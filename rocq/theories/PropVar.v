(** * PropVar: C109, variances in f64 are never negative. *)
From Flocq Require Import Core IEEE754.BinarySingleNaN.
From Verif Require Import PTa4 Inst PIeee PIeee2 PRound PMono.
From Verif Require Export PropRange PropStats.
From Coq Require Import Lra Psatz.
Local Open Scope R_scope.

Section RealLevel.
  Notation fexp64 := (SpecFloat.fexp 53 1024).
  Notation rnd r := (round radix2 fexp64 (round_mode mode_NE) r).
  Notation fmt r := (generic_format radix2 fexp64 r).
  #[local] Instance vexp109 : Valid_exp fexp64 := fexp_correct 53 1024 eq_refl.

  Lemma rnd_opp r : rnd (- r) = - rnd r.
  Proof. cbn [round_mode]. apply round_NE_opp. Qed.
  (** Every f64 is a whole number of steps of 2^-1074. *)
  Lemma whole_steps (x : f64) : exists n : Z, B2R x = IZR n * bpow radix2 (-1074).
  Proof.
    destruct x as [s|s| |s m e H]; try (exists 0%Z; cbn; lra).
    pose proof H as B. unfold SpecFloat.bounded in B. apply andb_prop in B. destruct B as [B _].
    unfold SpecFloat.canonical_mantissa in B. apply Zeq_bool_eq in B. unfold SpecFloat.fexp, SpecFloat.emin in B.
    assert (E : (-1074 <= e)%Z) by lia.
    cbn [B2R]. unfold F2R. cbn [Fnum Fexp]. exists (cond_Zopp s (Z.pos m) * 2 ^ (e + 1074))%Z.
    rewrite mult_IZR. replace e with ((e + 1074) + -1074)%Z at 1 by lia. rewrite bpow_plus, (IZR_Zpower radix2) by lia. ring.
  Qed.
  Lemma step_below (x y : f64) : B2R y < B2R x -> bpow radix2 (-1074) <= B2R x - B2R y.
  Proof.
    destruct (whole_steps x) as [n ->], (whole_steps y) as [k ->]. pose proof (bpow_gt_0 radix2 (-1074)) as P. intros H.
    assert (L : (k < n)%Z) by (apply lt_IZR; nra). assert (L' : (k + 1 <= n)%Z) by lia. apply IZR_le in L'. rewrite plus_IZR in L'. nra.
  Qed.
  (** Half of the rounded difference, rounded, does not exceed the difference. *)
  Lemma half_step (x y : f64) : B2R y <= B2R x -> rnd (rnd (B2R x - B2R y) / 2) <= B2R x - B2R y.
  Proof.
    intros [L|L]; [|rewrite L; replace (B2R x - B2R x) with 0 by ring; rewrite round_0 by apply valid_rnd_round_mode; unfold Rdiv; rewrite Rmult_0_l, round_0 by apply valid_rnd_round_mode; lra].
    pose proof (step_below _ _ L) as ST. set (D := B2R x - B2R y) in *. pose proof (bpow_gt_0 radix2 (-1074)) as P.
    assert (DP : D <> 0) by lra. destruct (mag radix2 D) as [e He]. specialize (He DP). rewrite Rabs_right in He by lra. destruct He as [H1 H2].
    assert (E : (-1074 <= e - 1)%Z).
    { assert (A : (-1074 < e)%Z) by (apply (lt_bpow radix2); lra). lia. }
    assert (FE : forall k, (-1074 <= k)%Z -> rnd (bpow radix2 k) = bpow radix2 k).
    { intros k Hk. apply round_generic; [apply valid_rnd_round_mode|]. apply generic_format_bpow. unfold SpecFloat.fexp, SpecFloat.emin. lia. }
    apply Rle_trans with (bpow radix2 (e - 1)); [|exact H1].
    rewrite <- (FE (e - 1)%Z E). apply rnd_le.
    apply Rle_trans with (bpow radix2 e / 2).
    - apply Rmult_le_compat_r; [lra|]. rewrite <- (FE e) by lia. apply rnd_le. lra.
    - right. unfold Zminus. rewrite bpow_plus. cbn. field.
  Qed.
  (** The mean moves towards the value and not past it. *)
  Lemma towards (x y n : f64) : 2 <= B2R n ->
    (B2R y <= B2R x -> 0 <= rnd (rnd (B2R x - B2R y) / B2R n) <= B2R x - B2R y) /\
    (B2R x <= B2R y -> B2R x - B2R y <= rnd (rnd (B2R x - B2R y) / B2R n) <= 0).
  Proof.
    intros N. assert (G : forall x y : f64, B2R y <= B2R x -> 0 <= rnd (rnd (B2R x - B2R y) / B2R n) <= B2R x - B2R y).
    { clear x y. intros x y H. assert (Z : 0 <= rnd (B2R x - B2R y)) by (apply rnd_0_ge; lra).
      assert (I : 0 < / B2R n) by (apply Rinv_0_lt_compat; lra). split.
      - apply rnd_0_ge. unfold Rdiv. nra.
      - eapply Rle_trans; [|apply half_step; exact H]. apply rnd_le. unfold Rdiv. apply Rmult_le_compat_l; [exact Z|].
        apply Rinv_le; lra. }
    split; [apply G|]. intros H. specialize (G y x H).
    replace (B2R x - B2R y) with (- (B2R y - B2R x)) by ring. rewrite rnd_opp.
    replace (- rnd (B2R y - B2R x) / B2R n) with (- (rnd (B2R y - B2R x) / B2R n)) by (unfold Rdiv; ring). rewrite rnd_opp. lra.
  Qed.
End RealLevel.

Section C109.
  Variable log10 : f64 -> f64.
  #[local] Instance N109 : Num f64 := IEEE log10.
  Notation z64 := (@fZ f64 N109).
  Notation n64 := (@fnat f64 N109).
  Notation fexp64 := (SpecFloat.fexp 53 1024).
  Notation rnd r := (round radix2 fexp64 (round_mode mode_NE) r).
  Notation top := (bpow radix2 1024).

  (** A number that is not negative: +infinity allowed, NaN not. *)
  Definition nn (x : f64) : Prop := x = B754_infinity false \/ (is_finite x = true /\ 0 <= B2R x).
  Lemma nn_le x : nn x -> Bleb (f64_ofZ 0) x = true.
  Proof.
    intros [-> | [F P]]; [reflexivity|]. rewrite to_xr_le, (to_xr_ofZ 0), to_xr_finite by (first [exact F|lia]).
    pose proof (fin_le 0 (B2R x)) as E. cbn in E. cbn. rewrite E. destruct (Rleb_spec 0 (B2R x)); [reflexivity|lra].
  Qed.
  Lemma rounded_nn z r : rounded z r -> 0 <= r -> nn z.
  Proof.
    intros [(F & E & _)|[[-> _]|[-> E]]] P.
    - right. split; [exact F|]. rewrite E. apply rnd_0_ge, P.
    - left. reflexivity.
    - exfalso. pose proof (rnd_0_ge r P). pose proof (bpow_gt_0 radix2 1024). lra.
  Qed.
  Lemma plus_nn x y : nn x -> nn y -> nn (Bplus mode_NE x y).
  Proof.
    intros [-> | [Fx Px]] [-> | [Fy Py]].
    - left. reflexivity.
    - left. destruct y; try discriminate; reflexivity.
    - left. destruct x; try discriminate; reflexivity.
    - eapply rounded_nn; [apply plus_rounded; assumption|lra].
  Qed.
  Lemma div_nn x y : nn x -> is_finite y = true -> 0 < B2R y -> nn (Bdiv mode_NE x y).
  Proof.
    intros [-> | [Fx Px]] Fy Py.
    - left. destruct y as [s|s| |[|] m e H]; try discriminate; cbn in Py; try lra; try reflexivity.
      exfalso. pose proof (F2R_lt_0 radix2 (Float radix2 (Z.neg m) e) ltac:(reflexivity)). unfold F2R in *. cbn in *. lra.
    - eapply rounded_nn; [apply div_rounded; assumption|]. apply Rmult_le_pos; [exact Px|]. left. apply Rinv_0_lt_compat, Py.
  Qed.
  Lemma sqrt_nn x : nn x -> nn (Bsqrt mode_NE x).
  Proof.
    intros [-> | [Fx Px]]; [left; reflexivity|]. right.
    destruct (Bsqrt_correct 53 1024 _ _ mode_NE x) as (E & F & _). rewrite E. split; [|apply rnd_0_ge, sqrt_pos].
    rewrite F. destruct x as [s|s| |[|] m e H]; try discriminate; try reflexivity.
    exfalso. cbn [B2R] in Px. pose proof (F2R_lt_0 radix2 (Float radix2 (Z.neg m) e) ltac:(reflexivity)). cbn [cond_Zopp Z.opp] in Px. apply (Rlt_not_le _ _ H0), Px.
  Qed.

  (** Values small enough for their differences not to overflow: at most
      2^1022, about 4.49e307. *)
  Definition moderate (v : f64) : Prop := is_finite v = true /\ Rabs (B2R v) <= bpow radix2 1022.
  Definition lim : f64 := @B754_finite 53 1024 false (2 ^ 52)%positive 971 eq_refl.
  Lemma lim_val : B2R lim = bpow radix2 1023.
  Proof. cbn [B2R lim]. unfold F2R. cbn [Fnum Fexp cond_Zopp]. replace 1023%Z with (52 + 971)%Z by reflexivity. rewrite bpow_plus. f_equal. Qed.
  Lemma lim_opp : B2R (Bopp lim) = - bpow radix2 1023.
  Proof. rewrite B2R_Bopp, lim_val. reflexivity. Qed.
  Lemma bpow_double : bpow radix2 1023 = bpow radix2 1022 + bpow radix2 1022.
  Proof. replace 1023%Z with (1 + 1022)%Z by reflexivity. rewrite bpow_plus. change (bpow radix2 1) with 2. ring. Qed.

  Lemma diff_of (x y : f64) : moderate x -> moderate y ->
    is_finite (Bminus mode_NE x y) = true /\ B2R (Bminus mode_NE x y) = rnd (B2R x - B2R y).
  Proof.
    intros [Fx Bx] [Fy By]. apply Rabs_le_iff in Bx. apply Rabs_le_iff in By. pose proof bpow_double as BD.
    pose proof (Bminus_correct 53 1024 _ _ mode_NE x y Fx Fy) as C.
    rewrite Rlt_bool_true in C.
    - destruct C as (C1 & C2 & _). auto.
    - apply (abs_lt (Bopp lim) lim). apply rnd_between. rewrite lim_val, lim_opp. lra.
  Qed.

  (** One step of Welford's recurrence: the new mean lies between the old one
      and the value, and the deviation does not fall. *)
  Lemma welford_step (mu v n : f64) : moderate mu -> moderate v -> is_finite n = true -> 2 <= B2R n ->
    let delta := Bminus mode_NE v mu in let m := Bplus mode_NE mu (Bdiv mode_NE delta n) in
    moderate m /\ nn (Bmult mode_NE delta (Bminus mode_NE v m)).
  Proof.
    intros MM MV Fn Pn. cbn zeta. destruct (diff_of v mu MV MM) as [Fd Ed]. set (delta := Bminus mode_NE v mu) in *.
    pose proof MM as [Fm Bm]. pose proof MV as [Fv Bv]. apply Rabs_le_iff in Bm. apply Rabs_le_iff in Bv.
    pose proof (towards v mu n Pn) as [T1 T2]. rewrite <- Ed in T1, T2.
    (* the quotient *)
    assert (Q : is_finite (Bdiv mode_NE delta n) = true /\ B2R (Bdiv mode_NE delta n) = rnd (B2R delta / B2R n)).
    { pose proof (Bdiv_correct 53 1024 _ _ mode_NE delta n ltac:(lra)) as C. rewrite Rlt_bool_true in C.
      - destruct C as (C1 & C2 & _). rewrite C2. auto.
      - pose proof bpow_double as BD.
        apply Rle_lt_trans with (bpow radix2 1023); [|apply bpow_lt; lia].
        apply Rabs_le_iff. destruct (Rle_or_lt (B2R mu) (B2R v)) as [O|O]; [specialize (T1 O)|specialize (T2 (Rlt_le _ _ O))]; lra. }
    destruct Q as [Fq Eq]. set (qt := Bdiv mode_NE delta n) in *. rewrite <- Eq in T1, T2.
    (* the new mean *)
    assert (M : is_finite (Bplus mode_NE mu qt) = true /\
      ((B2R mu <= B2R v /\ B2R mu <= B2R (Bplus mode_NE mu qt) <= B2R v) \/ (B2R v <= B2R mu /\ B2R v <= B2R (Bplus mode_NE mu qt) <= B2R mu))).
    { destruct (Rle_or_lt (B2R mu) (B2R v)) as [O|O].
      - specialize (T1 O). destruct (plus_within log10 mu v mu qt Fm Fq ltac:(lra)) as [W1 W2]. split; [exact W1|]. left. split; [exact O|exact W2].
      - specialize (T2 (Rlt_le _ _ O)). destruct (plus_within log10 v mu mu qt Fm Fq ltac:(lra)) as [W1 W2]. split; [exact W1|]. right. split; [lra|exact W2]. }
    destruct M as [FM HM]. set (m := Bplus mode_NE mu qt) in *.
    assert (MD : moderate m) by (split; [exact FM|]; apply Rabs_le_iff; lra).
    split; [exact MD|].
    destruct (diff_of v m MV MD) as [Fe Ee].
    eapply rounded_nn; [apply mult_rounded; [exact Fd|exact Fe]|]. rewrite Ed, Ee.
    destruct HM as [[O H]|[O H]].
    - apply Rmult_le_pos; apply rnd_0_ge; lra.
    - assert (A1 : rnd (B2R v - B2R mu) <= 0) by (apply rnd_0_le; lra). assert (A2 : rnd (B2R v - B2R m) <= 0) by (apply rnd_0_le; lra). nra.
  Qed.
  (** The first step: the mean is the value. *)
  Lemma welford_first (v : f64) : moderate v ->
    let delta := Bminus mode_NE v (f64_ofZ 0) in let m := Bplus mode_NE (f64_ofZ 0) (Bdiv mode_NE delta (f64_ofZ 1)) in
    moderate m /\ B2R m = B2R v /\ nn (Bmult mode_NE delta (Bminus mode_NE v m)).
  Proof.
    intros MV. cbn zeta. assert (M0 : moderate (f64_ofZ 0)) by (split; [reflexivity|]; change (B2R (f64_ofZ 0)) with 0; rewrite Rabs_R0; apply bpow_ge_0).
    destruct (diff_of v (f64_ofZ 0) MV M0) as [Fd Ed]. set (delta := Bminus mode_NE v (f64_ofZ 0)) in *.
    destruct (f64_ofZ_correct 1 ltac:(lia)) as [V1 F1].
    assert (RG : forall x : f64, rnd (B2R x) = B2R x) by (intros x; apply round_generic; [apply valid_rnd_round_mode|apply generic_format_B2R]).
    assert (V0 : B2R (f64_ofZ 0) = 0) by reflexivity.
    rewrite V0, Rminus_0_r, RG in Ed. pose proof MV as [Fv Bv].
    assert (SM : Rabs (B2R v) < top) by (eapply Rle_lt_trans; [exact Bv|apply bpow_lt; lia]).
    assert (Q : is_finite (Bdiv mode_NE delta (f64_ofZ 1)) = true /\ B2R (Bdiv mode_NE delta (f64_ofZ 1)) = B2R v).
    { pose proof (Bdiv_correct 53 1024 _ _ mode_NE delta (f64_ofZ 1) ltac:(lra)) as C.
      rewrite Ed, V1 in C. replace (B2R v / 1) with (B2R v) in C by field. rewrite RG, Rlt_bool_true in C by exact SM. destruct C as (C1 & C2 & _). rewrite C2. auto. }
    destruct Q as [Fq Eq]. set (qt := Bdiv mode_NE delta (f64_ofZ 1)) in *.
    assert (M : is_finite (Bplus mode_NE (f64_ofZ 0) qt) = true /\ B2R (Bplus mode_NE (f64_ofZ 0) qt) = B2R v).
    { pose proof (Bplus_correct 53 1024 _ _ mode_NE (f64_ofZ 0) qt eq_refl Fq) as C.
      rewrite V0, Eq, Rplus_0_l, RG, Rlt_bool_true in C by exact SM. destruct C as (C1 & C2 & _). auto. }
    destruct M as [FM EM]. set (m := Bplus mode_NE (f64_ofZ 0) qt) in *.
    assert (MD : moderate m) by (split; [exact FM|rewrite EM; exact Bv]).
    split; [exact MD|]. split; [exact EM|].
    destruct (diff_of v m MV MD) as [Fe Ee]. rewrite EM in Ee. replace (B2R v - B2R v) with 0 in Ee by ring.
    rewrite round_0 in Ee by apply valid_rnd_round_mode.
    eapply rounded_nn; [apply mult_rounded; [exact Fd|exact Fe]|]. rewrite Ee. lra.
  Qed.

  Lemma count_val n : (Z.of_nat n <= 2 ^ 53)%Z -> is_finite (n64 n) = true /\ B2R (n64 n) = INR n.
  Proof.
    intros H. destruct (f64_ofZ_correct (Z.of_nat n) ltac:(lia)) as [V F]. rewrite INR_IZR_INZ. split; [exact F|exact V].
  Qed.
  (** One call of WelfordsVar::next. *)
  Lemma wvar_call n mu d v : (Z.of_nat (n + 1) <= 2 ^ 53)%Z -> moderate v -> nn d ->
    (n = 0%nat /\ mu = f64_ofZ 0 \/ (0 < n)%nat /\ moderate mu) ->
    exists mu' d' x, wvar_next (mkWvar n mu d) v = (mkWvar (n + 1) mu' d', x) /\ moderate mu' /\ nn d' /\ nn x.
  Proof.
    intros B MV ND MM. unfold wvar_next. cbn [wf_n wf_mean wf_dev]. do 3 eexists. split; [reflexivity|].
    destruct (count_val (n + 1) B) as [Fn En].
    destruct (Nat.leb_spec (n + 1) 1) as [L|L].
    - destruct MM as [[-> ->]|[? _]]; [|lia]. destruct (welford_first v MV) as (S1 & _ & S2).
      split; [exact S1|]. split; [apply plus_nn; [exact ND|exact S2]|]. right. split; [reflexivity|]. right. reflexivity.
    - assert (MU : moderate mu) by (destruct MM as [[? _]|[_ MM]]; [lia|exact MM]).
      assert (P : 2 <= B2R (n64 (n + 1))) by (rewrite En; apply (le_INR 2); lia).
      destruct (welford_step mu v (n64 (n + 1)) MU MV Fn P) as [S1 S2]. cbn zeta in S1, S2.
      split; [exact S1|]. assert (ND' : nn (fadd d (fmul (fsub v mu) (fsub v (fadd mu (fdiv (fsub v mu) (n64 (n + 1)))))))) by (apply plus_nn; [exact ND|exact S2]).
      split; [exact ND'|].
      destruct (f64_ofZ_correct 1 ltac:(lia)) as [V1 F1].
      destruct (minus_within log10 (f64_ofZ 1) (n64 (n + 1)) (n64 (n + 1)) (f64_ofZ 1) Fn F1) as [W1 W2]; [rewrite V1; lra|].
      apply div_nn; [exact ND'|exact W1|]. eapply Rlt_le_trans; [|exact (proj1 W2)]. rewrite V1. lra.
  Qed.

  Lemma snoc_forall (P : f64 -> Prop) h x : Forall P (h ++ [x]) -> Forall P h /\ P x.
  Proof. intros H. apply Forall_app in H. destruct H as [H1 H2]. split; [exact H1|]. inversion H2. assumption. Qed.
  Lemma wvar_run64 c (xs : list f64) : Forall moderate xs -> (Z.of_nat (length xs) <= 2 ^ 53)%Z ->
    exists n mu d os, run_st wvar_step c wvar_new xs = Ok (mkWvar n mu d, os) /\ n = length xs /\ nn d /\ Forall nn os /\
      length os = length xs /\ (n = 0%nat /\ mu = f64_ofZ 0 \/ (0 < n)%nat /\ moderate mu).
  Proof.
    induction xs as [|x xs IH] using rev_ind; intros FM B.
    - exists 0%nat, (f64_ofZ 0), (f64_ofZ 0), []. split; [reflexivity|]. split; [reflexivity|]. split; [right; split; [reflexivity|right; reflexivity]|].
      split; [constructor|]. split; [reflexivity|]. left. split; reflexivity.
    - apply snoc_forall in FM. destruct FM as [FM MX]. rewrite app_length in B. cbn [length] in B.
      destruct (IH FM ltac:(lia)) as (n & mu & d & os & E & -> & ND & NO & LO & MM).
      rewrite run_st_app, E. cbn [rbind run_st]. unfold wvar_step.
      destruct (wvar_call (length xs) mu d x B MX ND MM) as (mu' & d' & y & C & M' & D' & Y). rewrite C. cbn [rbind].
      do 4 eexists. split; [reflexivity|]. rewrite !app_length. cbn [length]. split; [reflexivity|]. split; [exact D'|].
      split; [apply Forall_app; split; [exact NO|constructor; [exact Y|constructor]]|]. split; [lia|]. right. split; [lia|exact M'].
  Qed.

  (** The fast variance and deviation, whichever component computes them. *)
  Lemma fast_var_run c w (xs : list f64) : run var_step c (mkVar true ic_new w mean_new) xs = run wvar_step c w xs.
  Proof.
    revert c w. induction xs as [|z zs IH]; intros c w; [reflexivity|]. rewrite !run_cons.
    unfold var_step at 1, var_next; cbn [va_fast va_welford va_cache va_mean]. unfold wvar_step at 1.
    destruct (wvar_next w z) as [w' o]. cbn [rbind]. rewrite IH. reflexivity.
  Qed.
  Lemma fast_stdev_run c w (xs : list f64) : run sstdev_step c (mkVar true ic_new w mean_new) xs = run wstdev_step c w xs.
  Proof.
    revert c w. induction xs as [|z zs IH]; intros c w; [reflexivity|]. rewrite !run_cons.
    unfold sstdev_step at 1, sstdev_next, var_next; cbn [va_fast va_welford va_cache va_mean]. unfold wstdev_step at 1.
    destruct (wvar_next w z) as [w' o]. cbn [rbind]. rewrite IH. reflexivity.
  Qed.
  Lemma stdev_of_var c w (xs : list f64) : run wstdev_step c w xs = (os <- run wvar_step c w xs ;; Ok (map (Bsqrt mode_NE) os)).
  Proof.
    revert c w. induction xs as [|z zs IH]; intros c w; [reflexivity|]. rewrite !run_cons.
    unfold wstdev_step at 1. unfold wvar_step at 1. destruct (wvar_next w z) as [w' o]. cbn [rbind]. rewrite IH.
    destruct (run wvar_step (ctx_advance c) w' zs) as [os|]; reflexivity.
  Qed.

  (** A number, and not below zero: not NaN. *)
  Definition at_least_zero (x : f64) : Prop := is_nan x = false /\ Bleb (f64_ofZ 0) x = true.
  Lemma nn_az x : nn x -> at_least_zero x.
  Proof. intros H. split; [|apply nn_le, H]. destruct H as [-> | [F _]]; [reflexivity|]. destruct x; try discriminate; reflexivity. Qed.
  Theorem C109_welford c (xs : list f64) : Forall moderate xs -> (Z.of_nat (length xs) <= 2 ^ 53)%Z ->
    exists vs, run wvar_step c wvar_new xs = Ok vs /\ run var_step c (var_build true) xs = Ok vs /\
      run wstdev_step c wvar_new xs = Ok (map (Bsqrt mode_NE) vs) /\ run sstdev_step c (sstdev_build true) xs = Ok (map (Bsqrt mode_NE) vs) /\
      length vs = length xs /\ Forall at_least_zero vs /\ Forall at_least_zero (map (Bsqrt mode_NE) vs).
  Proof.
    intros M B. destruct (wvar_run64 c xs M B) as (n & mu & d & os & E & _ & _ & NO & LO & _). exists os.
    assert (R1 : run wvar_step c wvar_new xs = Ok os) by (unfold run; rewrite E; reflexivity).
    split; [exact R1|]. split; [unfold var_build; rewrite fast_var_run; exact R1|].
    assert (R2 : run wstdev_step c wvar_new xs = Ok (map (Bsqrt mode_NE) os)) by (rewrite stdev_of_var, R1; reflexivity).
    split; [exact R2|]. split; [unfold sstdev_build, var_build; rewrite fast_stdev_run; exact R2|]. split; [exact LO|].
    split.
    - eapply Forall_impl; [|exact NO]. intros x. apply nn_az.
    - apply Forall_map. eapply Forall_impl; [|exact NO]. intros x Hx. apply nn_az, sqrt_nn, Hx.
  Qed.

  (** Equal values: the fast variance is zero at every bar. *)
  Definition is_zero (x : f64) : Prop := is_finite x = true /\ B2R x = 0.
  Lemma zero_shape x : is_zero x -> exists s, x = B754_zero s.
  Proof.
    intros [F V]. destruct x as [s|s| |s m e H]; try discriminate; [exists s; reflexivity|].
    exfalso. cbn [B2R] in V. destruct s.
    - pose proof (F2R_lt_0 radix2 (Float radix2 (Z.neg m) e) ltac:(reflexivity)) as L. cbn [cond_Zopp Z.opp] in V. rewrite V in L. exact (Rlt_irrefl _ L).
    - pose proof (F2R_gt_0 radix2 (Float radix2 (Z.pos m) e) ltac:(reflexivity)) as L. cbn [cond_Zopp Z.opp] in V. rewrite V in L. exact (Rlt_irrefl _ L).
  Qed.
  Lemma rnd_exact (x : f64) : rnd (B2R x) = B2R x.
  Proof. apply round_generic; [apply valid_rnd_round_mode|apply generic_format_B2R]. Qed.
  Lemma self_diff (x y : f64) : moderate x -> moderate y -> B2R x = B2R y -> is_zero (Bminus mode_NE x y).
  Proof.
    intros X Y E. destruct (diff_of x y X Y) as [F V]. split; [exact F|]. rewrite V, E. replace (B2R y - B2R y) with 0 by ring.
    apply round_0, valid_rnd_round_mode.
  Qed.
  Lemma zero_div (x n : f64) : is_zero x -> is_finite n = true -> B2R n <> 0 -> is_zero (Bdiv mode_NE x n).
  Proof.
    intros Z F N. destruct (zero_shape _ Z) as [s ->]. destruct n as [t|t| |t m e H]; try discriminate; [exfalso; apply N; reflexivity|].
    split; reflexivity.
  Qed.
  Lemma zero_mul (x y : f64) : is_finite x = true -> is_zero y -> is_zero (Bmult mode_NE x y).
  Proof. intros F Z. destruct (zero_shape _ Z) as [s ->]. destruct x as [t|t| |t m e H]; try discriminate; split; reflexivity. Qed.
  Lemma zero_add (x y : f64) : is_finite x = true -> is_zero y -> is_finite (Bplus mode_NE x y) = true /\ B2R (Bplus mode_NE x y) = B2R x.
  Proof.
    intros F Z. destruct (zero_shape _ Z) as [s ->]. destruct x as [t|t| |t m e H]; try discriminate; [|split; reflexivity].
    destruct t, s; split; reflexivity.
  Qed.
  Lemma wvar_same v : moderate v -> forall k n c mu d, (Z.of_nat (n + k) <= 2 ^ 53)%Z -> is_zero d ->
    (n = 0%nat /\ mu = f64_ofZ 0 \/ (0 < n)%nat /\ moderate mu /\ B2R mu = B2R v) ->
    exists vs, run wvar_step c (mkWvar n mu d) (repeat v k) = Ok vs /\ Forall is_zero vs.
  Proof.
    intros MV k. induction k as [|k IH]; intros n c mu d B Zd MM; [exists []; split; [reflexivity|constructor]|].
    cbn [repeat]. rewrite run_cons. unfold wvar_step at 1. unfold wvar_next. cbn [wf_n wf_mean wf_dev]. cbn [rbind].
    destruct (count_val (n + 1) ltac:(lia)) as [Fn En].
    assert (Pn : 1 <= B2R (n64 (n + 1))) by (rewrite En; apply (le_INR 1); lia).
    set (delta := fsub v mu). set (m := fadd mu (fdiv delta (n64 (n + 1)))). set (e := fsub v m).
    assert (H : moderate m /\ B2R m = B2R v /\ is_finite delta = true).
    { destruct MM as [[-> ->]|(P & Mm & Em)].
      - destruct (welford_first v MV) as (S1 & S2 & _). split; [exact S1|]. split; [exact S2|].
        apply (diff_of v (f64_ofZ 0) MV). split; [reflexivity|]; change (B2R (f64_ofZ 0)) with 0; rewrite Rabs_R0; apply bpow_ge_0.
      - pose proof (self_diff v mu MV Mm (eq_sym Em)) as Zq. pose proof (zero_div _ (n64 (n + 1)) Zq Fn ltac:(lra)) as Zr.
        destruct (zero_add mu _ (proj1 Mm) Zr) as [A1 A2]. fold delta in A1, A2.
        assert (Vm : B2R m = B2R v) by (etransitivity; [exact A2|exact Em]).
        split; [|split; [exact Vm|exact (proj1 Zq)]]. split; [exact A1|]. rewrite Vm. exact (proj2 MV). }
    destruct H as (Mm & Em & Fd). pose proof (self_diff v m MV Mm (eq_sym Em)) as Ze.
    pose proof (zero_mul delta e Fd Ze) as Zm.
    assert (Zd' : is_zero (fadd d (fmul delta e))).
    { destruct (zero_add d _ (proj1 Zd) Zm) as [A1 A2]. split; [exact A1|]. etransitivity; [exact A2|exact (proj2 Zd)]. }
    destruct (IH (n + 1)%nat (ctx_advance c) m (fadd d (fmul delta e)) ltac:(lia) Zd') as (vs & E & Fz); [right; split; [lia|split; [exact Mm|exact Em]]|].
    exists ((if (n + 1 <=? 1)%nat then fZ 0 else fdiv (fadd d (fmul delta e)) (fsub (n64 (n + 1)) (fZ 1))) :: vs).
    split; [rewrite E; reflexivity|]. constructor; [|exact Fz].
    destruct (Nat.leb_spec (n + 1) 1); [split; reflexivity|].
    assert (P2 : 2 <= B2R (n64 (n + 1))) by (rewrite En; apply (le_INR 2); lia).
    destruct (f64_ofZ_correct 1 ltac:(lia)) as [V1 F1].
    destruct (minus_within log10 (f64_ofZ 1) (n64 (n + 1)) (n64 (n + 1)) (f64_ofZ 1) Fn F1) as [W1 W2]; [rewrite V1; lra|].
    apply zero_div; [exact Zd'|exact W1|]. apply Rgt_not_eq. eapply Rlt_le_trans; [|exact (proj1 W2)]. rewrite V1. lra.
  Qed.
  Theorem C109_constant c v k : moderate v -> (Z.of_nat k <= 2 ^ 53)%Z ->
    exists vs, run wvar_step c wvar_new (repeat v k) = Ok vs /\ run var_step c (var_build true) (repeat v k) = Ok vs /\
      length vs = k /\ forall x, In x vs -> Beqb x (f64_ofZ 0) = true.
  Proof.
    intros MV B. destruct (wvar_same v MV k 0 c (f64_ofZ 0) (f64_ofZ 0) B) as (vs & E & Fz); [split; reflexivity|left; split; reflexivity|].
    exists vs. split; [exact E|]. split; [unfold var_build; rewrite fast_var_run; exact E|].
    split; [apply run_length in E; rewrite E; apply repeat_length|].
    intros x Hx. rewrite Forall_forall in Fz. destruct (zero_shape _ (Fz x Hx)) as [s ->]. destruct s; reflexivity.
  Qed.

  (** The slow variance: not negative when it is a number, whatever the values. *)
  Lemma ofZ_unsigned z : (0 <= z)%Z -> pz (f64_ofZ z).
  Proof.
    intros H. pose proof (binary_normalize_correct 53 1024 _ _ mode_NE z 0 false) as C. fold (f64_ofZ z) in C.
    assert (V : F2R (Float radix2 z 0) = IZR z) by (unfold F2R; cbn [Fnum Fexp bpow]; ring).
    rewrite V in C. apply IZR_le in H. cbn zeta in C. destruct (Rlt_bool (Rabs (rnd (IZR z))) top).
    - destruct C as (_ & _ & C). right. rewrite C. destruct H as [H|H]; [rewrite Rcompare_Gt by exact H; reflexivity|].
      rewrite <- H, Rcompare_Eq by reflexivity. reflexivity.
    - rewrite Rlt_bool_false in C by exact H. right. apply sf_inf' in C. rewrite C. reflexivity.
  Qed.
  Lemma var_nonneg (vs : list f64) : pz (var vs).
  Proof.
    unfold var, var_from_mean. apply (div_pz log10); [|apply ofZ_unsigned; lia]. apply (sum_pz log10).
    apply Forall_forall. intros x Hx. apply in_map_iff in Hx. destruct Hx as (y & <- & _). left. apply square_pz.
  Qed.
  Theorem C109_slow c (xs : list f64) :
    exists vs, run var_step c (var_build false) xs = Ok vs /\ run sstdev_step c (sstdev_build false) xs = Ok (map (Bsqrt mode_NE) vs) /\
      length vs = length xs /\ Forall nonnegative vs /\ Forall nonnegative (map (Bsqrt mode_NE) vs).
  Proof.
    exists (each_prefix var xs). split; [apply C41_var_slow|]. split.
    { rewrite C41_stdev_slow. f_equal. unfold each_prefix. rewrite map_map. reflexivity. }
    split; [apply length_each_prefix|]. split.
    - apply Forall_forall. intros x Hx. unfold each_prefix in Hx. apply in_map_iff in Hx. destruct Hx as (p & <- & _).
      apply nz_nonneg. left. apply var_nonneg.
    - apply Forall_forall. intros x Hx. unfold each_prefix in Hx. rewrite map_map in Hx. apply in_map_iff in Hx. destruct Hx as (p & <- & _).
      apply nz_nonneg. left. apply sqrt_pz, var_nonneg.
  Qed.
End C109.

(** The largest f64 and its opposite: the fast variance overflows to minus
    infinity and the fast deviation is NaN. *)
Definition largest : f64 := @B754_finite 53 1024 false (2 ^ 53 - 1)%positive 971 eq_refl.
Definition shape_of (r : res (list f64)) : option (list SpecFloat.spec_float) :=
  match r with Ok vs => Some (map B2SF vs) | Panic => None end.
Theorem C109_overflow : let xs := [Bopp largest; largest] in
  shape_of (run wvar_step ctx6 wvar_new xs) = Some [SpecFloat.S754_zero false; SpecFloat.S754_infinity true] /\
  shape_of (run var_step ctx6 (var_build true) xs) = Some [SpecFloat.S754_zero false; SpecFloat.S754_infinity true] /\
  shape_of (run wstdev_step ctx6 wvar_new xs) = Some [SpecFloat.S754_zero false; SpecFloat.S754_nan] /\
  shape_of (run sstdev_step ctx6 (sstdev_build true) xs) = Some [SpecFloat.S754_zero false; SpecFloat.S754_nan].
Proof. cbn zeta. repeat split; vm_compute; reflexivity. Qed.

(** Three equal values, 0.1 each: the slow variance is above zero at the third
    bar (about 1.9e-34) while the fast one is zero. *)
Definition tenth : f64 := fdiv (q 1) (q 10).
Definition last_positive (r : res (list f64)) : bool :=
  match r with Ok vs => match rev vs with v :: _ => Bltb (f64_ofZ 0) v | [] => false end | Panic => false end.
Theorem C109_slow_constant : let xs := [tenth; tenth; tenth] in
  last_positive (run var_step ctx6 (var_build false) xs) = true /\
  last_positive (run sstdev_step ctx6 (sstdev_build false) xs) = true /\
  last_positive (run var_step ctx6 (var_build true) xs) = false.
Proof. cbn zeta. repeat split; vm_compute; reflexivity. Qed.

Lemma moderate_small v (z : Z) : v = f64_ofZ z -> (Z.abs z <= 2 ^ 53)%Z -> moderate v.
Proof.
  intros -> H. destruct (f64_ofZ_correct z H) as [V F]. split; [exact F|]. rewrite V, <- abs_IZR.
  apply Rle_trans with (IZR (2 ^ 53)); [apply IZR_le, H|]. change (2 ^ 53)%Z with (Zpower radix2 53). rewrite IZR_Zpower by lia. apply bpow_le; lia.
Qed.
Example C109_ex_hyps : Forall moderate [q 2; q 4; q 12; q (-7)].
Proof.
  apply Forall_cons; [apply (moderate_small _ 2); [reflexivity|lia]|]. apply Forall_cons; [apply (moderate_small _ 4); [reflexivity|lia]|].
  apply Forall_cons; [apply (moderate_small _ 12); [reflexivity|lia]|]. apply Forall_cons; [apply (moderate_small _ (-7)); [reflexivity|lia]|].
  apply Forall_nil.
Qed.
Example C109_ex : gives feqb (run var_step ctx6 (var_build true) [q 2; q 4; q 12; q (-2)]) [q 0; q 2; q 28; fdiv (q 104) (q 3)] = true.
Proof. vm_compute. reflexivity. Qed.
