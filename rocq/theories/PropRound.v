(** * PropRound: C98 (exponential averages do not drift in f64), C99 (moving
    sums and averages in f64). *)
From Flocq Require Import Core IEEE754.BinarySingleNaN.
From Verif Require Export PRound PPipe PTa3 SpecBar.
From Verif Require Import PTa1 PTa2 PExact3 Inst.
From Coq Require Import Lra Psatz.
Local Open Scope R_scope.

Section C98.
  Variable log10 : f64 -> f64.
  #[local] Instance N98 : Num f64 := IEEE log10.
  Notation z64 := (@fZ f64 N98).
  Notation n64 := (@fnat f64 N98).

  Lemma int_plus_1 len : (Z.of_nat len <= 2 ^ 32)%Z -> is_finite (fadd (n64 len) (z64 1)) = true /\ B2R (fadd (n64 len) (z64 1)) = INR len + 1.
  Proof.
    intros L. destruct (f64_ofZ_correct (Z.of_nat len) ltac:(lia)) as [En Fn]. destruct (f64_ofZ_correct 1 ltac:(lia)) as [E1 F1].
    destruct (f64_ofZ_correct (Z.of_nat len + 1) ltac:(lia)) as [Es Fs].
    pose proof (Bplus_correct 53 1024 _ _ mode_NE (f64_ofZ (Z.of_nat len)) (f64_ofZ 1) Fn F1) as C.
    rewrite En, E1 in C. replace (IZR (Z.of_nat len) + 1) with (B2R (f64_ofZ (Z.of_nat len + 1))) in C by (rewrite Es, plus_IZR; reflexivity).
    rewrite round_generic in C by (try apply valid_rnd_round_mode; apply generic_format_B2R).
    rewrite Rlt_bool_true in C by apply abs_B2R_lt_emax. destruct C as (E & Fz & _).
    split; [exact Fz|]. etransitivity; [exact E|]. rewrite Es, plus_IZR, <- INR_IZR_INZ. reflexivity.
  Qed.
  Lemma weight_near (x y : f64) (p q : R) : is_finite x = true -> is_finite y = true -> B2R x = p -> B2R y = q -> 1 <= p <= 2 -> 1 <= q <= 2 ^ 33 ->
    is_finite (fdiv x y) = true /\ Rabs (B2R (fdiv x y) - p / q) <= 2 * u64 * (p / q) /\ 32 * u64 <= p / q.
  Proof.
    intros Fx Fy Ex Ey P Q. assert (I : 0 < / q) by (apply Rinv_0_lt_compat; lra). assert (PQ : p / q = p * / q) by reflexivity.
    assert (J : bpow radix2 (-33) <= / q).
    { change (-33)%Z with (- (33))%Z. rewrite bpow_opp. apply Rinv_le_contravar; [lra|]. replace (bpow radix2 33) with (2 ^ 33) by (cbn; lra). lra. }
    assert (PQ' : bpow radix2 (-33) <= p / q) by nra.
    assert (U : 0 < u64) by apply bpow_gt_0. assert (PP : 0 < p / q) by (unfold Rdiv; nra).
    assert (ET : eta64 <= u64 * (p / q)).
    { apply Rle_trans with (u64 * bpow radix2 (-33)); [|apply Rmult_le_compat_l; lra]. unfold u64, eta64. rewrite <- bpow_plus. apply bpow_le. lia. }
    assert (QI : / q <= 1) by (rewrite <- Rinv_1; apply Rinv_le_contravar; lra).
    destruct (div_near x y Fx Fy) as [Fz Ez]; [lra| |].
    { rewrite Ex, Ey, Rabs_pos_eq by lra. apply Rle_trans with 2; [rewrite PQ; nra|]. apply (bpow_le radix2 1 1022). lia. }
    rewrite Ex, Ey, (Rabs_pos_eq (p / q)) in Ez by lra.
    split; [exact Fz|]. split; [eapply Rle_trans; [exact Ez|]; lra|].
    apply Rle_trans with (bpow radix2 (-33)); [|exact PQ']. replace 32 with (bpow radix2 5) by (cbn; lra). unfold u64. rewrite <- bpow_plus. apply bpow_le. lia.
  Qed.
  Lemma IL32 len : (Z.of_nat len <= 2 ^ 32)%Z -> INR len <= 4294967296.
  Proof. intros L. rewrite INR_IZR_INZ. apply IZR_le in L. exact L. Qed.
  (** A run over warm-up gaps and then finite values is accurate: missing where
      the exact result is missing, otherwise finite and within [err]. *)
  Definition accurate (err : R) (exact : list R -> option R) (k : nat) (vs : list f64) (os : list (option f64)) : Prop :=
    length os = (k + length vs)%nat /\
    (forall i, (i < k)%nat -> nth_error os i = Some None) /\
    forall i, (i < length vs)%nat ->
      match exact (firstn (S i) (map B2R vs)) with
      | None => nth_error os (k + i) = Some None
      | Some e => exists v, nth_error os (k + i) = Some (Some v) /\ is_finite v = true /\ Rabs (B2R v - e) <= err
      end.
  Lemma smooth_accurate M a al err len c k vs new (step : ctx f64 -> ema_st f64 -> option f64 -> res (ema_st f64 * option f64)) :
    (forall c xs, run_new new step c xs = ema_runs len al xs) ->
    magnitude M -> bounded_by M vs -> (2 <= len)%nat -> (Z.of_nat len <= 2 ^ 32)%Z ->
    is_finite al = true -> Rabs (B2R al - a) <= 2 * u64 * a -> 32 * u64 <= a -> 0 < a <= 2 / (INR len + 1) -> 32 * u64 * M / a = err ->
    exists os, run_new new step c (repeat None k ++ map Some vs) = Ok os /\ accurate err (Rsmooth a len) k vs os.
  Proof.
    intros RUN HM B L L' FA HA A1 A2 ER. rewrite RUN. fold (warm k vs). rewrite ema_runs_warm by lia.
    eexists. split; [reflexivity|]. split; [rewrite app_length, repeat_length, length_each_prefix; reflexivity|]. split.
    - intros i I. rewrite nth_error_app1 by (rewrite repeat_length; exact I). apply nth_error_repeat. exact I.
    - intros i I. rewrite nth_error_app2 by (rewrite repeat_length; lia). rewrite repeat_length. replace (k + i - k)%nat with i by lia.
      rewrite nth_error_each_prefix by exact I. assert (FM : firstn (S i) (map B2R vs) = map B2R (firstn (S i) vs)) by apply firstn_map. rewrite FM. clear FM.
      assert (BI : bounded_by M (firstn (S i) vs)) by (apply Forall_forall; intros x J; apply firstn_In in J; revert x J; apply Forall_forall; exact B).
      pose proof (ema_val_err log10 M len a al (firstn (S i) vs) HM BI L L' FA HA A1 A2) as H.
      destruct (Rsmooth a len (map B2R (firstn (S i) vs))) as [e|].
      + destruct H as (v & E & Fv & Ev & _). exists v. split; [f_equal; exact E|]. split; [exact Fv|]. rewrite <- ER. exact Ev.
      + f_equal. exact H.
  Qed.
  (** Ema: however long the history, the error is at most (length + 1) / 2^49 of
      the largest input. *)
  Theorem C98_ema len (c : ctx f64) k vs M : (2 <= len)%nat -> (Z.of_nat len <= 2 ^ 32)%Z -> magnitude M -> bounded_by M vs ->
    exists os, run_new (ema_new len) ema_step c (repeat None k ++ map Some vs) = Ok os /\
      accurate ((INR len + 1) * M / 2 ^ 49) (Rsmooth (2 / (INR len + 1)) len) k vs os.
  Proof.
    intros L L' HM B. pose proof (IL32 _ L') as IL. assert (P : 2 <= INR len) by (apply (le_INR 2); exact L).
    destruct (int_plus_1 len L') as [F1 E1]. destruct (f64_ofZ_correct 2 ltac:(lia)) as [E2 F2].
    destruct (weight_near (z64 2) (fadd (n64 len) (z64 1)) 2 (INR len + 1) F2 F1 E2 E1) as (FA & HA & A1); [lra|replace (2 ^ 33) with 8589934592 by ring; lra|].
    apply (smooth_accurate M (2 / (INR len + 1)) (ema_alpha_of len)); try assumption.
    - intros c0 xs. apply ema_with_alpha_run. lia.
    - split; [|apply Rle_refl]. apply Rdiv_lt_0_compat; lra.
    - unfold u64. replace (bpow radix2 (-53)) with (/ 2 ^ 53) by (cbn; lra). field. lra.
  Qed.
  (** Rma: length / 2^48 of the largest input. *)
  Theorem C98_rma len (c : ctx f64) k vs M : (2 <= len)%nat -> (Z.of_nat len <= 2 ^ 32)%Z -> magnitude M -> bounded_by M vs ->
    exists os, run_new (rma_new len) rma_step c (repeat None k ++ map Some vs) = Ok os /\
      accurate (INR len * M / 2 ^ 48) (Rsmooth (1 / INR len) len) k vs os.
  Proof.
    intros L L' HM B. pose proof (IL32 _ L') as IL. assert (P : 2 <= INR len) by (apply (le_INR 2); exact L).
    destruct (f64_ofZ_correct (Z.of_nat len) ltac:(lia)) as [En Fn]. rewrite <- INR_IZR_INZ in En. destruct (f64_ofZ_correct 1 ltac:(lia)) as [E2 F2].
    destruct (weight_near (z64 1) (n64 len) 1 (INR len) F2 Fn E2 En) as (FA & HA & A1); [lra|replace (2 ^ 33) with 8589934592 by ring; lra|].
    apply (smooth_accurate M (1 / INR len) (rma_alpha_of len)); try assumption.
    - intros c0 xs. apply rma_run. lia.
    - split; [apply Rdiv_lt_0_compat; lra|]. apply Rmult_le_reg_r with (INR len * (INR len + 1)); [nra|].
      replace (1 / INR len * (INR len * (INR len + 1))) with (INR len + 1) by (field; lra).
      replace (2 / (INR len + 1) * (INR len * (INR len + 1))) with (2 * INR len) by (field; lra). lra.
    - unfold u64. replace (bpow radix2 (-53)) with (/ 2 ^ 53) by (cbn; lra). field. lra.
  Qed.
End C98.

Section C99.
  Variable log10 : f64 -> f64.
  #[local] Instance N99 : Num f64 := IEEE log10.
  Notation z64 := (@fZ f64 N99).
  Notation n64 := (@fnat f64 N99).
  Lemma lastn_sum_abs M n (vs : list f64) : 0 <= M -> bounded_by M vs -> Rabs (Rsum (map B2R (lastn n vs))) <= INR n * M.
  Proof.
    intros PM B. assert (BL : bounded_by M (lastn n vs)) by (apply Forall_forall; intros x J; apply lastn_In in J; revert x J; apply Forall_forall; exact B).
    eapply Rle_trans; [apply (sum_abs_bound M); exact BL|]. apply Rmult_le_compat_r; [exact PM|]. apply le_INR. unfold lastn. rewrite skipn_length. lia.
  Qed.
  (** The accumulator after [t] values. *)
  Lemma racc_err M len vs : magnitude M -> bounded_by M vs -> (1 <= len)%nat -> INR (length vs) * (INR len + 1) <= 2 ^ 48 ->
    is_finite (racc len (map Some vs)) = true /\
    Rabs (B2R (racc len (map Some vs)) - Rsum (map B2R (lastn (len - 1) vs))) <= 4 * u64 * (INR len + 1) * INR (length vs) * M.
  Proof.
    intros HM. destruct (magnitude_facts _ HM) as (PM & U & U' & T & BIG).
    induction vs as [|x vs IH] using rev_ind; intros B L Q; [cbn; split; [reflexivity|]; unfold lastn; cbn; rewrite Rminus_0_r, Rabs_R0; lra|].
    pose proof B as B0. apply Forall_app in B. destruct B as [B Bx]. inversion Bx as [|? ? [Fx Hx] _]; subst.
    rewrite app_length in Q |- *. cbn [length] in Q |- *. rewrite Nat.add_1_r, S_INR in *. set (t := INR (length vs)) in *.
    assert (T0 : 0 <= t) by apply pos_INR. assert (L1 : 1 <= INR len) by (apply (le_INR 1); exact L).
    destruct (IH B L ltac:(nra)) as [Fa Ea]. clear IH.
    set (n := INR len) in *. set (a := racc len (map Some vs)) in *. set (W := Rsum (map B2R (lastn (len - 1) vs))) in *.
    assert (HW : Rabs W <= (n - 1) * M).
    { unfold W. eapply Rle_trans; [apply (lastn_sum_abs M); [lra|exact B]|]. rewrite minus_INR by exact L. cbn [INR]. fold n. lra. }
    assert (NU : 4 * u64 * (n + 1) * t <= / 8).
    { replace (4 * u64 * (n + 1) * t) with (4 * u64 * (t * (n + 1))) by ring. replace (2 ^ 48) with 281474976710656 in Q by ring.
      replace (/ 2 ^ 53) with (/ 9007199254740992) in U' by (f_equal; ring). assert (0 <= t * (n + 1)) by nra. nra. }
    assert (NB : n <= 2 ^ 48) by nra.
    assert (Ha : Rabs (B2R a - W) <= M / 8) by (eapply Rle_trans; [exact Ea|]; nra).
    assert (H1 : Rabs (B2R a + B2R x) <= (n + / 8) * M).
    { replace (B2R a + B2R x) with ((B2R a - W) + (W + B2R x)) by ring. eapply Rle_trans; [apply Rabs_triang|]. pose proof (Rabs_triang W (B2R x)). nra. }
    assert (BIG' : forall r, r <= 2 ^ 49 -> r * M <= bpow radix2 1022).
    { intros r Hr. eapply Rle_trans; [|exact BIG]. apply Rmult_le_compat_r; [lra|].
      replace (2 ^ 49) with 562949953421312 in Hr by ring. replace (2 ^ 100) with 1267650600228229401496703205376 by ring. lra. }
    replace (2 ^ 48) with 281474976710656 in NB by ring.
    destruct (plus_near a x Fa Fx) as [Fs Es].
    { eapply Rle_trans; [exact H1|]. apply BIG'. replace (2 ^ 49) with 562949953421312 by ring. lra. }
    rewrite map_app. cbn [map]. rewrite racc_snoc. cbn [oadd]. change (@fadd f64 N99 a x) with (Bplus mode_NE a x). set (s := Bplus mode_NE a x) in *.
    assert (Es' : Rabs (B2R s - (B2R a + B2R x)) <= u64 * ((n + / 8) * M) + u64 * M / 1000).
    { eapply Rle_trans; [exact Es|]. apply Rplus_le_compat; [|lra]. apply Rmult_le_compat_l; lra. }
    assert (UM : 0 < u64 * M) by nra. assert (U9 : u64 <= / 1000000000000000) by (replace (/ 2 ^ 53) with (/ 9007199254740992) in U' by (f_equal; ring); lra).
    assert (UN : u64 * (n * M) <= M / 8) by nra. assert (UMN : 0 < u64 * M * n) by nra.
    destruct (Nat.lt_ge_cases (length vs) (len - 1)) as [SH|SH].
    - (* still filling *)
      rewrite ago_unfilled by (rewrite app_length, map_length; cbn; lia). cbn [join osub].
      rewrite (lastn_all (len - 1) (vs ++ [x])) by (rewrite app_length; cbn; lia). unfold W in *. rewrite (lastn_all (len - 1) vs) in * by lia.
      rewrite map_app, Rsum_app. cbn [map Rsum]. rewrite Rplus_0_r. split; [exact Fs|].
      set (S := Rsum (map B2R vs)) in *. change (Rabs (B2R s - (S + B2R x)) <= 4 * u64 * (n + 1) * (t + 1) * M). replace (B2R s - (S + B2R x)) with ((B2R s - (B2R a + B2R x)) + (B2R a - S)) by ring.
      eapply Rle_trans; [apply Rabs_triang|]. lra.
    - (* a value leaves *)
      assert (OLD : exists o, join (ago (len - 1) (map Some vs ++ [Some x])) = Some o /\ In o (vs ++ [x]) /\ Rsum (map B2R (lastn (len - 1) (vs ++ [x]))) = W + B2R x - B2R o).
      { destruct (lastn_S_split (len - 1) (vs ++ [x])) as (o & AG & SP); [rewrite app_length; cbn; lia|].
        replace (S (len - 1)) with len in SP by lia. exists o. split; [|split].
        - change [Some x] with (map (@Some f64) [x]). rewrite <- map_app. unfold ago in *. rewrite map_length, nth_error_map.
          destruct (len - 1 <? length (vs ++ [x]))%nat; [|discriminate]. rewrite AG. reflexivity.
        - unfold ago in AG. destruct (len - 1 <? length (vs ++ [x]))%nat; [|discriminate]. apply nth_error_In in AG. exact AG.
        - assert (SQ : lastn len (vs ++ [x]) = lastn (len - 1) vs ++ [x]) by (replace len with (S (len - 1)) at 1 by lia; apply lastn_S_snoc).
          rewrite SQ in SP. apply (f_equal (fun l => Rsum (map B2R l))) in SP. rewrite map_app, Rsum_app in SP. cbn [map Rsum] in SP. match type of SP with ?A + _ = _ + ?B => change (B = A + B2R x - B2R o) end. lra. }
      destruct OLD as (o & -> & IO & ->). cbn [osub]. change (@fsub f64 N99 s o) with (Bminus mode_NE s o).
      unfold bounded_by in B0. rewrite Forall_forall in B0. destruct (B0 o IO) as [Fo Ho].
      assert (H2 : Rabs (B2R s - B2R o) <= (n + 3 / 2) * M).
      { replace (B2R s - B2R o) with ((B2R s - (B2R a + B2R x)) + ((B2R a + B2R x) - B2R o)) by ring.
        eapply Rle_trans; [apply Rabs_triang|]. pose proof (Rabs_triang (B2R a + B2R x) (- B2R o)) as TR. rewrite Rabs_Ropp in TR. unfold Rminus in *. nra. }
      destruct (minus_near s o Fs Fo) as [Fd Ed].
      { eapply Rle_trans; [exact H2|]. apply BIG'. replace (2 ^ 49) with 562949953421312 by ring. lra. }
      split; [exact Fd|]. set (d := Bminus mode_NE s o) in *.
      change (Rabs (B2R d - (W + B2R x - B2R o)) <= 4 * u64 * (n + 1) * (t + 1) * M).
      replace (B2R d - (W + B2R x - B2R o)) with ((B2R d - (B2R s - B2R o)) + ((B2R s - (B2R a + B2R x)) + (B2R a - W))) by ring.
      assert (Ed' : Rabs (B2R d - (B2R s - B2R o)) <= u64 * ((n + 3 / 2) * M) + u64 * M / 1000).
      { eapply Rle_trans; [exact Ed|]. apply Rplus_le_compat; [|lra]. apply Rmult_le_compat_l; lra. }
      eapply Rle_trans; [apply Rabs_triang|]. eapply Rle_trans; [apply Rplus_le_compat_l, Rabs_triang|]. nra.
  Qed.
  Lemma racc_warm_any len k (vs : list f64) : (1 <= len)%nat -> racc len (warm k vs) = racc len (map Some vs).
  Proof.
    intros L. induction vs as [|x vs IH] using rev_ind; [apply (@racc_warm f64 N99 len k []); cbn; lia|].
    rewrite warm_snoc, map_app. cbn [map]. rewrite !racc_snoc, IH. f_equal. rewrite <- warm_snoc. change [Some x] with (map (@Some f64) [x]). rewrite <- map_app.
    generalize (vs ++ [x]). clear. intros vs. unfold ago, warm. rewrite app_length, repeat_length, map_length.
    destruct (Nat.ltb_spec (len - 1) (length vs)) as [H|H].
    - rewrite (proj2 (Nat.ltb_lt (len - 1) (k + length vs))) by lia. rewrite nth_error_app2 by (rewrite repeat_length; lia). rewrite repeat_length. do 2 f_equal. lia.
    - destruct (Nat.ltb_spec (len - 1) (k + length vs)); [|reflexivity]. rewrite nth_error_app1 by (rewrite repeat_length; lia). rewrite nth_error_repeat by lia. reflexivity.
  Qed.
  (** The reported sum: the accumulator plus the newest value. *)
  Lemma rsum_err M len k vs : magnitude M -> bounded_by M vs -> (1 <= len)%nat -> vs <> [] -> INR (length vs) * (INR len + 1) <= 2 ^ 48 ->
    is_finite (rsum len (warm k vs)) = true /\
    Rabs (B2R (rsum len (warm k vs)) - Rsum (map B2R (lastn len vs))) <= 4 * u64 * (INR len + 1) * INR (length vs) * M.
  Proof.
    intros HM B L NE Q. destruct (magnitude_facts _ HM) as (PM & U & U' & T & BIG).
    destruct vs as [|x vs] using rev_ind; [contradiction|]. clear IHvs NE.
    apply Forall_app in B. destruct B as [B Bx]. inversion Bx as [|? ? [Fx Hx] _]; subst.
    rewrite app_length in Q |- *. cbn [length] in Q |- *. rewrite Nat.add_1_r, S_INR in *. set (t := INR (length vs)) in *.
    assert (T0 : 0 <= t) by apply pos_INR. assert (L1 : 1 <= INR len) by (apply (le_INR 1); exact L).
    destruct (racc_err M len vs HM B L ltac:(fold t; nra)) as [Fa Ea]. fold t in Ea.
    rewrite warm_snoc, rsum_snoc, racc_warm_any by exact L.
    assert (SQ : Rsum (map B2R (lastn len (vs ++ [x]))) = Rsum (map B2R (lastn (len - 1) vs)) + B2R x).
    { replace len with (S (len - 1)) at 1 by lia. rewrite lastn_S_snoc. rewrite map_app, Rsum_app. cbn [map Rsum]. rewrite Rplus_0_r. reflexivity. }
    pose proof (lastn_sum_abs M (len - 1) vs ltac:(lra) B) as HW. rewrite minus_INR in HW by exact L. cbn [INR] in HW.
    set (n := INR len) in *. set (a := racc len (map Some vs)) in *. set (W := Rsum (map B2R (lastn (len - 1) vs))) in *.
    assert (NU : 4 * u64 * (n + 1) * t <= / 8).
    { replace (4 * u64 * (n + 1) * t) with (4 * u64 * (t * (n + 1))) by ring. replace (2 ^ 48) with 281474976710656 in Q by ring.
      replace (/ 2 ^ 53) with (/ 9007199254740992) in U' by (f_equal; ring). assert (0 <= t * (n + 1)) by nra. nra. }
    assert (NB : n <= 2 ^ 48) by nra.
    assert (Ha : Rabs (B2R a - W) <= M / 8) by (eapply Rle_trans; [exact Ea|]; nra).
    assert (H1 : Rabs (B2R a + B2R x) <= (n + / 8) * M).
    { replace (B2R a + B2R x) with ((B2R a - W) + (W + B2R x)) by ring. eapply Rle_trans; [apply Rabs_triang|]. pose proof (Rabs_triang W (B2R x)). nra. }
    destruct (plus_near a x Fa Fx) as [Fs Es].
    { eapply Rle_trans; [exact H1|]. eapply Rle_trans; [|exact BIG]. apply Rmult_le_compat_r; [lra|].
      replace (2 ^ 48) with 281474976710656 in NB by ring. replace (2 ^ 100) with 1267650600228229401496703205376 by ring. lra. }
    split; [exact Fs|]. rewrite SQ. cbn [oadd]. set (s := Bplus mode_NE a x) in *.
    assert (Es' : Rabs (B2R s - (B2R a + B2R x)) <= u64 * ((n + / 8) * M) + u64 * M / 1000).
    { eapply Rle_trans; [exact Es|]. apply Rplus_le_compat; [|lra]. apply Rmult_le_compat_l; lra. }
    assert (UM : 0 < u64 * M) by nra. assert (UMN : 0 < u64 * M * n) by nra.
    change (Rabs (B2R s - (W + B2R x)) <= 4 * u64 * (n + 1) * (t + 1) * M). replace (B2R s - (W + B2R x)) with ((B2R s - (B2R a + B2R x)) + (B2R a - W)) by ring.
    eapply Rle_trans; [apply Rabs_triang|]. lra.
  Qed.
  Lemma firstn_app_exact {A} (l m : list A) n : length l = n -> l = firstn n (l ++ m).
  Proof. intros <-. rewrite firstn_app, firstn_all, Nat.sub_diag. symmetry. apply app_nil_r. Qed.
  Lemma window_accurate err len (f : list R -> R) (g : list (option f64) -> f64) k vs : (1 <= len)%nat ->
    (forall i, (len <= S i)%nat -> (i < length vs)%nat -> is_finite (g (warm k (firstn (S i) vs))) = true /\
       Rabs (B2R (g (warm k (firstn (S i) vs))) - f (map B2R (lastn len (firstn (S i) vs)))) <= err) ->
    accurate err (fun h => option_map f (full_window len h)) k vs (each_prefix (fun h => option_map (fun _ => g h) (window len h)) (warm k vs)).
  Proof.
    intros L H. split; [rewrite length_each_prefix; unfold warm; rewrite app_length, repeat_length, map_length; reflexivity|].
    assert (LW : length (warm k vs) = (k + length vs)%nat) by (unfold warm; rewrite app_length, repeat_length, map_length; reflexivity).
    split.
    - intros i I. rewrite nth_error_each_prefix by lia. f_equal. replace (firstn (S i) (warm k vs)) with (warm (S i) (@nil f64)).
      + rewrite window_warm by exact L. cbn [length]. rewrite (proj2 (Nat.leb_gt len 0)) by lia. reflexivity.
      + unfold warm. rewrite firstn_app, repeat_length. replace (S i - k)%nat with 0%nat by lia. cbn [map]. f_equal.
        replace k with (S i + (k - S i))%nat by lia. rewrite repeat_app. apply (firstn_app_exact (repeat None (S i))). apply repeat_length.
    - intros i I. rewrite nth_error_each_prefix by lia. replace (firstn (S (k + i)) (warm k vs)) with (warm k (firstn (S i) vs)).
      2:{ unfold warm. rewrite firstn_app, (@firstn_all2 _ _ (repeat None k)) by (rewrite repeat_length; lia). f_equal. rewrite repeat_length.
          replace (S (k + i) - k)%nat with (S i) by lia. symmetry. apply firstn_map. }
      rewrite window_warm by exact L. unfold full_window. assert (FM : firstn (S i) (map B2R vs) = map B2R (firstn (S i) vs)) by apply firstn_map. rewrite FM. clear FM.
      assert (ML : length (map B2R (firstn (S i) vs)) = S i) by (etransitivity; [apply map_length|apply firstn_length_le; lia]). rewrite ML.
      assert (FL : length (firstn (S i) vs) = S i) by (apply firstn_length_le; lia). rewrite FL.
      destruct (Nat.leb_spec len (S i)) as [LE|LE]; [|reflexivity].
      destruct (H i LE I) as [Fv Ev]. cbn [option_map]. eexists. split; [reflexivity|]. split; [exact Fv|].
      replace (lastn len (map B2R (firstn (S i) vs))) with (map B2R (lastn len (firstn (S i) vs))); [exact Ev|].
      unfold lastn. rewrite ML, FL. symmetry. apply skipn_map.
  Qed.
  Lemma firstn_bounded M n (vs : list f64) : bounded_by M vs -> bounded_by M (firstn n vs).
  Proof. intros B. apply Forall_forall; intros x J; apply firstn_In in J; revert x J; apply Forall_forall; exact B. Qed.
  (** Sum: as long as (values seen) * (length + 1) <= 2^48, every reported sum is
      within (length + 1) * (values seen) / 2^51 of the largest input of the true
      sum of the window. *)
  Theorem C99_sum_partial len (c : ctx f64) k vs M : (1 <= len)%nat -> magnitude M -> bounded_by M vs -> INR (length vs) * (INR len + 1) <= 2 ^ 48 ->
    exists os, run_new (sum_new len) sum_step c (repeat None k ++ map Some vs) = Ok os /\
      accurate ((INR len + 1) * INR (length vs) * M / 2 ^ 51) (fun h => option_map Rsum (full_window len h)) k vs os.
  Proof.
    intros L HM B Q. fold (warm k vs). rewrite sum_run by exact L. eexists. split; [reflexivity|].
    apply (window_accurate _ len Rsum (rsum len) k vs L). intros i LE I.
    destruct (magnitude_facts _ HM) as (PM & U & U' & _ & _).
    assert (FL : length (firstn (S i) vs) = S i) by (apply firstn_length_le; lia).
    assert (IT : INR (S i) <= INR (length vs)) by (apply le_INR; lia). pose proof (pos_INR len). pose proof (pos_INR (S i)).
    destruct (rsum_err M len k (firstn (S i) vs) HM (firstn_bounded M (S i) vs B) L) as [Fv Ev].
    - intros E. rewrite E in FL. discriminate.
    - rewrite FL. eapply Rle_trans; [|exact Q]. apply Rmult_le_compat_r; lra.
    - split; [exact Fv|]. eapply Rle_trans; [exact Ev|]. rewrite FL.
      replace ((INR len + 1) * INR (length vs) * M / 2 ^ 51) with (4 * u64 * (INR len + 1) * INR (length vs) * M) by (unfold u64; replace (bpow radix2 (-53)) with (/ 2 ^ 53) by (cbn; lra); field).
      repeat apply Rmult_le_compat_r; try lra. apply Rmult_le_compat_l; [|exact IT]. nra.
  Qed.
  (** Sma: within (values seen) / 2^50 of the largest input of the true mean. *)
  Theorem C99_sma_partial len (c : ctx f64) k vs M : (2 <= len)%nat -> magnitude M -> bounded_by M vs -> INR (length vs) * (INR len + 1) <= 2 ^ 48 ->
    exists os, run_new (sma_new len) sma_step c (repeat None k ++ map Some vs) = Ok os /\
      accurate (INR (length vs) * M / 2 ^ 50) (fun h => option_map Rmean (full_window len h)) k vs os.
  Proof.
    intros L HM B Q. fold (warm k vs). rewrite sma_run by lia. eexists. split; [reflexivity|].
    assert (EX : each_prefix (sma_out len) (warm k vs) = each_prefix (fun h => option_map (fun _ => fdiv (rsum len h) (n64 len)) (window len h)) (warm k vs)).
    { apply each_prefix_ext. intros p. unfold sma_out. rewrite (proj2 (Nat.eqb_neq len 1)) by lia. reflexivity. }
    rewrite EX. clear EX.
    apply (window_accurate _ len Rmean (fun h => fdiv (rsum len h) (n64 len)) k vs ltac:(lia)). intros i LE I.
    destruct (magnitude_facts _ HM) as (PM & U & U' & T & BIG).
    assert (FL : length (firstn (S i) vs) = S i) by (apply firstn_length_le; lia).
    assert (IT : INR (S i) <= INR (length vs)) by (apply le_INR; lia). assert (L1 : 2 <= INR len) by (apply (le_INR 2); exact L). pose proof (pos_INR (S i)).
    assert (Q' : INR (S i) * (INR len + 1) <= 2 ^ 48) by (eapply Rle_trans; [|exact Q]; apply Rmult_le_compat_r; lra).
    destruct (rsum_err M len k (firstn (S i) vs) HM (firstn_bounded M (S i) vs B) ltac:(lia)) as [Fv Ev]; [intros E; rewrite E in FL; discriminate|rewrite FL; exact Q'|].
    rewrite FL in Ev. set (s := rsum len (warm k (firstn (S i) vs))) in *.
    assert (WL : length (map B2R (lastn len (firstn (S i) vs))) = len) by (etransitivity; [apply map_length|]; unfold lastn; rewrite skipn_length, FL; lia).
    pose proof (lastn_sum_abs M len (firstn (S i) vs) ltac:(lra) (firstn_bounded M (S i) vs B)) as HW.
    unfold Rmean. rewrite WL. set (W := Rsum (map B2R (lastn len (firstn (S i) vs)))) in *.
    assert (I1 : 1 <= INR (S i)) by (apply (le_INR 1); lia).
    assert (NB : INR len <= 2 ^ 47).
    { assert (INR len <= INR (S i)) by (apply le_INR; exact LE). replace (2 ^ 48) with 281474976710656 in Q' by ring. replace (2 ^ 47) with 140737488355328 by ring. nra. }
    assert (LZ : (Z.of_nat len <= 2 ^ 47)%Z) by (replace (2 ^ 47) with 140737488355328 in NB by ring; apply le_IZR; rewrite <- INR_IZR_INZ; exact NB).
    destruct (f64_ofZ_correct (Z.of_nat len) ltac:(lia)) as [En Fn]. rewrite <- INR_IZR_INZ in En.
    set (n := INR len) in *. set (t := INR (S i)) in *.
    assert (NU : 4 * u64 * (n + 1) * t <= / 8).
    { replace (4 * u64 * (n + 1) * t) with (4 * u64 * (t * (n + 1))) by ring. replace (2 ^ 48) with 281474976710656 in Q' by ring.
      replace (/ 2 ^ 53) with (/ 9007199254740992) in U' by (f_equal; ring). assert (0 <= t * (n + 1)) by nra. nra. }
    assert (Ha : Rabs (B2R s - W) <= M / 8) by (eapply Rle_trans; [exact Ev|]; nra).
    assert (Hs : Rabs (B2R s) <= (n + / 8) * M).
    { replace (B2R s) with ((B2R s - W) + W) by ring. eapply Rle_trans; [apply Rabs_triang|]. lra. }
    assert (IN : 0 < / n) by (apply Rinv_0_lt_compat; lra). assert (IN1 : n * / n = 1) by (field; lra).
    assert (Hq : Rabs (B2R s / n) <= (1 + / 16) * M).
    { unfold Rdiv. rewrite Rabs_mult, (Rabs_pos_eq (/ n)) by lra. apply Rle_trans with ((n + / 8) * M * / n); [apply Rmult_le_compat_r; lra|].
      replace ((n + / 8) * M * / n) with (M * (n * / n) + M * / 8 * / n) by ring. rewrite IN1. assert (/ n <= / 2) by (apply Rinv_le_contravar; lra). nra. }
    destruct (div_near s (n64 len) Fv Fn) as [Fd Ed].
    { intros E. change (B2R (n64 len)) with (B2R (f64_ofZ (Z.of_nat len))) in E. rewrite En in E. lra. }
    { change (B2R (n64 len)) with (B2R (f64_ofZ (Z.of_nat len))). rewrite En. eapply Rle_trans; [exact Hq|]. eapply Rle_trans; [|exact BIG]. apply Rmult_le_compat_r; [lra|].
      replace (2 ^ 100) with 1267650600228229401496703205376 by ring. lra. }
    split; [exact Fd|]. change (B2R (n64 len)) with (B2R (f64_ofZ (Z.of_nat len))) in Ed. rewrite En in Ed. set (d := Bdiv mode_NE s (f64_ofZ (Z.of_nat len))) in *.
    change (Rabs (B2R d - W / n) <= INR (length vs) * M / 2 ^ 50).
    replace (INR (length vs) * M / 2 ^ 50) with (8 * u64 * INR (length vs) * M) by (unfold u64; replace (bpow radix2 (-53)) with (/ 2 ^ 53) by (cbn; lra); field).
    apply Rle_trans with (8 * u64 * t * M); [|apply Rmult_le_compat_r; [lra|]; apply Rmult_le_compat_l; lra].
    replace (B2R d - W / n) with ((B2R d - B2R s / n) + (B2R s - W) * / n) by (unfold Rdiv; ring).
    eapply Rle_trans; [apply Rabs_triang|]. rewrite Rabs_mult, (Rabs_pos_eq (/ n)) by lra.
    assert (E2 : Rabs (B2R s - W) * / n <= 6 * u64 * t * M).
    { apply Rle_trans with (4 * u64 * (n + 1) * t * M * / n); [apply Rmult_le_compat_r; lra|].
      replace (4 * u64 * (n + 1) * t * M * / n) with (4 * (u64 * t * M) * (n * / n) + 4 * (u64 * t * M) * / n) by ring. rewrite IN1.
      assert (/ n <= / 2) by (apply Rinv_le_contravar; lra). assert (0 <= u64 * t * M) by (apply Rmult_le_pos; [apply Rmult_le_pos|]; lra). nra. }
    assert (E3 : Rabs (B2R d - B2R s / n) <= u64 * ((1 + / 16) * M) + u64 * M / 1000).
    { eapply Rle_trans; [exact Ed|]. apply Rplus_le_compat; [|lra]. apply Rmult_le_compat_l; lra. }
    assert (UM : 0 < u64 * M) by nra. assert (u64 * M <= u64 * t * M) by nra. lra.
  Qed.

  (** The bound must grow with the history: one bad tick of 2^53 poisons the
      running sum for ever, however many good values follow and although the bad
      tick has long left the window. *)
  Definition spike : f64 := f64_ofZ (2 ^ 53).
  Definition one : f64 := f64_ofZ 1.
  Lemma spike_facts : fadd (z64 0) spike = spike /\ fadd spike one = spike /\ fsub spike spike = z64 0 /\ fadd (z64 0) one = one /\ fsub one one = z64 0.
  Proof. repeat split; apply B2SF_inj; vm_compute; reflexivity. Qed.
  Lemma ago_spike k n : ago k (Some spike :: repeat (Some one) n) = if (n =? k)%nat then Some (Some spike) else if (k <? n)%nat then Some (Some one) else None.
  Proof.
    unfold ago. cbn [length]. rewrite repeat_length. destruct (Nat.eqb_spec n k) as [->|N].
    - rewrite (proj2 (Nat.ltb_lt k (S k))) by lia. replace (S k - 1 - k)%nat with 0%nat by lia. reflexivity.
    - destruct (Nat.ltb_spec k n) as [H|H].
      + rewrite (proj2 (Nat.ltb_lt k (S n))) by lia. replace (S n - 1 - k)%nat with (S (n - 1 - k)) by lia. cbn [nth_error]. apply nth_error_repeat. lia.
      + rewrite (proj2 (Nat.ltb_ge k (S n))) by lia. reflexivity.
  Qed.
  Lemma repeat_snoc {A} (x : A) n : repeat x (S n) = repeat x n ++ [x].
  Proof. rewrite <- (Nat.add_1_r n), repeat_app. reflexivity. Qed.
  Lemma racc_spike len n : (2 <= len)%nat -> racc len (Some spike :: repeat (Some one) n) = if (n + 1 <? len)%nat then spike else z64 0.
  Proof.
    intros L. destruct spike_facts as (E1 & E2 & E3 & E4 & E5). induction n as [|n IH].
    - change (Some spike :: repeat (Some one) 0) with ([] ++ [Some spike]). rewrite racc_snoc. cbn [app].
      rewrite ago_unfilled by (cbn; lia). rewrite (proj2 (Nat.ltb_lt _ _)) by lia. cbn [join osub oadd]. exact E1.
    - rewrite repeat_snoc. change (Some spike :: repeat (Some one) n ++ [Some one]) with ((Some spike :: repeat (Some one) n) ++ [Some one]).
      rewrite racc_snoc, IH. replace ((Some spike :: repeat (Some one) n) ++ [Some one]) with (Some spike :: repeat (Some one) (S n)) by (rewrite repeat_snoc; reflexivity).
      rewrite ago_spike. cbn [oadd]. destruct (Nat.ltb_spec (n + 1) len) as [H|H].
      + rewrite E2. destruct (Nat.eqb_spec (S n) (len - 1)) as [Q|Q].
        * rewrite (proj2 (Nat.ltb_ge _ _)) by lia. exact E3.
        * rewrite (proj2 (Nat.ltb_ge (len - 1) (S n))) by lia. rewrite (proj2 (Nat.ltb_lt _ _)) by lia. reflexivity.
      + rewrite E4. rewrite (proj2 (Nat.eqb_neq _ _)) by lia. rewrite (proj2 (Nat.ltb_lt (len - 1) (S n))) by lia. rewrite (proj2 (Nat.ltb_ge _ _)) by lia. exact E5.
  Qed.
  Theorem C99_refuted len (c : ctx f64) n : (2 <= len)%nat -> (Z.of_nat len <= 2 ^ 32)%Z ->
    exists os, run_new (sma_new len) sma_step c (Some spike :: repeat (Some one) n) = Ok os /\
      forall i, (len <= i <= n)%nat ->
        (* the window holds only ones *)
        full_window len (firstn (S i) (B2R spike :: repeat (B2R one) n)) = Some (repeat 1 len) /\
        (* yet the reported average is 1 / length *)
        exists v, nth_error os i = Some (Some v) /\ v = fdiv one (n64 len) /\ Rabs (B2R v - 1 / INR len) <= / 2 ^ 50 /\ B2R v <= 3 / 4.
  Proof.
    intros L L'. rewrite sma_run by lia. eexists. split; [reflexivity|]. intros i I.
    destruct spike_facts as (E1 & E2 & E3 & E4 & E5).
    assert (F : forall X (a b : X), firstn (S i) (a :: repeat b n) = (a :: repeat b (i - 1)) ++ [b]).
    { intros X a b. cbn [firstn app]. f_equal. rewrite <- repeat_snoc. replace (S (i - 1)) with i by lia. replace n with (i + (n - i))%nat by lia. rewrite repeat_app.
      symmetry. apply firstn_app_exact. apply repeat_length. }
    destruct (f64_ofZ_correct 1 ltac:(lia)) as [Eo Fo].
    split.
    - rewrite F. change (B2R one) with (B2R (f64_ofZ 1)). rewrite Eo. unfold full_window. rewrite app_length. cbn [length]. rewrite repeat_length.
      rewrite (proj2 (Nat.leb_le _ _)) by lia. f_equal. unfold lastn. rewrite app_length. cbn [length]. rewrite repeat_length.
      replace (S (i - 1) + 1 - len)%nat with (S (i - len)) by lia. cbn [app skipn]. rewrite <- repeat_snoc.
      replace (S (i - 1)) with (i - len + len)%nat by lia. rewrite repeat_app, skipn_app, repeat_length, skipn_all2 by (rewrite repeat_length; lia). rewrite Nat.sub_diag. reflexivity.
    - exists (fdiv one (n64 len)). rewrite nth_error_each_prefix by (cbn [length]; rewrite repeat_length; lia). split; [|split; [reflexivity|]].
      + f_equal. rewrite F. unfold sma_out. rewrite (proj2 (Nat.eqb_neq len 1)) by lia. rewrite rsum_snoc, racc_spike by exact L. rewrite (proj2 (Nat.ltb_ge _ _)) by lia.
        cbn [oadd]. rewrite E4. change (Some spike) with (Some spike). replace ((Some spike :: repeat (Some one) (i - 1)) ++ [Some one]) with (warm 0 (spike :: repeat one i)).
        * rewrite window_warm by lia. cbn [length]. rewrite repeat_length. rewrite (proj2 (Nat.leb_le _ _)) by lia. reflexivity.
        * unfold warm. cbn [repeat app map]. f_equal. rewrite <- repeat_snoc. replace (S (i - 1)) with i by lia. clear. induction i as [|i IH]; [reflexivity|]. cbn [repeat map]. f_equal. exact IH.
      + pose proof (IL32 _ L') as IL. assert (P : 2 <= INR len) by (apply (le_INR 2); exact L).
        destruct (f64_ofZ_correct (Z.of_nat len) ltac:(lia)) as [En Fn]. rewrite <- INR_IZR_INZ in En.
        destruct (weight_near log10 one (n64 len) 1 (INR len) Fo Fn Eo En) as (FA & HA & A1); [lra|replace (2 ^ 33) with 8589934592 by ring; lra|].
        assert (IN : / INR len <= / 2) by (apply Rinv_le_contravar; lra). assert (IP : 0 < / INR len) by (apply Rinv_0_lt_compat; lra).
        assert (U : u64 = / 2 ^ 53) by (unfold u64; cbn; lra). assert (UP : 0 < u64) by apply bpow_gt_0.
        assert (D : Rabs (B2R (fdiv one (n64 len)) - 1 / INR len) <= / 2 ^ 50).
        { eapply Rle_trans; [exact HA|]. replace (/ 2 ^ 50) with (8 * u64) by (rewrite U; field). unfold Rdiv. nra. }
        split; [exact D|]. replace (/ 2 ^ 50) with (/ 1125899906842624) in D by (f_equal; ring). apply Rabs_le_inv in D. unfold Rdiv in D. lra.
  Qed.
  (** Histories that meet the hypotheses. *)
  Lemma hundred : magnitude 100.
  Proof. unfold magnitude. split; [apply Rle_trans with (bpow radix2 0); [apply bpow_le; lia|cbn; lra]|apply Rle_trans with (bpow radix2 7); [cbn; lra|apply bpow_le; lia]]. Qed.
  Definition prices : list f64 := map f64_ofZ [90; 91; 95; 93; 100; 99; 97]%Z.
  Lemma prices_bounded : bounded_by 100 prices.
  Proof.
    unfold prices, bounded_by. repeat constructor; match goal with |- _ (f64_ofZ ?z) = true => apply (f64_ofZ_correct z); lia | |- context [f64_ofZ ?z] => destruct (f64_ofZ_correct z ltac:(lia)) as [-> _]; rewrite Rabs_pos_eq; lra end.
  Qed.
  Example C98_ex (c : ctx f64) : exists os, run_new (ema_new 3) ema_step c ([None; None] ++ map Some prices) = Ok os /\
    accurate ((INR 3 + 1) * 100 / 2 ^ 49) (Rsmooth (2 / (INR 3 + 1)) 3) 2 prices os.
  Proof. apply (C98_ema log10 3 c 2 prices 100); [lia|lia|exact hundred|exact prices_bounded]. Qed.
  Example C98_ex_rma (c : ctx f64) : exists os, run_new (rma_new 3) rma_step c ([None; None] ++ map Some prices) = Ok os /\
    accurate (INR 3 * 100 / 2 ^ 48) (Rsmooth (1 / INR 3) 3) 2 prices os.
  Proof. apply (C98_rma log10 3 c 2 prices 100); [lia|lia|exact hundred|exact prices_bounded]. Qed.
  Lemma prices_short : INR (length prices) * (INR 3 + 1) <= 2 ^ 48.
  Proof. cbn. lra. Qed.
  Example C99_ex (c : ctx f64) : exists os, run_new (sma_new 3) sma_step c ([None] ++ map Some prices) = Ok os /\
    accurate (INR (length prices) * 100 / 2 ^ 50) (fun h => option_map Rmean (full_window 3 h)) 1 prices os.
  Proof. apply (C99_sma_partial 3 c 1 prices 100); [lia|exact hundred|exact prices_bounded|exact prices_short]. Qed.
  Example C99_ex_sum (c : ctx f64) : exists os, run_new (sum_new 3) sum_step c ([None] ++ map Some prices) = Ok os /\
    accurate ((INR 3 + 1) * INR (length prices) * 100 / 2 ^ 51) (fun h => option_map Rsum (full_window 3 h)) 1 prices os.
  Proof. apply (C99_sum_partial 3 c 1 prices 100); [lia|exact hundred|exact prices_bounded|exact prices_short]. Qed.
  Example C99_ex_refuted (c : ctx f64) : exists os v, run_new (sma_new 5) sma_step c (Some spike :: repeat (Some one) 40) = Ok os /\ nth_error os 40 = Some (Some v) /\ B2R v <= 3 / 4.
  Proof.
    destruct (C99_refuted 5 c 40) as (os & E & H); [lia|lia|]. destruct (H 40%nat) as (_ & v & A & _ & _ & B); [lia|]. exists os, v. auto.
  Qed.
End C99.
