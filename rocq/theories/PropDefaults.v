(** * PropDefaults: C97 (the default configurations, on complete bars). *)
From Verif Require Export PropContent1 PropContent5.
From Verif Require Import PTa4 PExact3 PContent3 Inst PropTa3 PropContent2 PropContent3 PropContent4.
Local Open Scope R_scope.

Section Feeds.
  Variables (c : ctx xr) (rs : list rbar5).
  Hypothesis FO : fresh_over c (map bar_of rs).
  Lemma close_feeds : feeds c (src_box SClose) (full (map rc rs)).
  Proof.
    pose proof (src_feeds SClose c _ FO) as H. rewrite map_map in H. unfold full. rewrite map_map. apply H.
    apply Forall_forall. intros; exact I.
  Qed.
  Definition Rhlc3 (r : rbar5) : R := (rh r + rl r + rc r) / 3.
  Lemma hlc3_feeds : feeds c (src_box SHLC3) (full (map Rhlc3 rs)).
  Proof.
    pose proof (src_feeds SHLC3 c _ FO) as H. rewrite map_map in H.
    replace (full (map Rhlc3 rs)) with (map (fun r => src_of SHLC3 (bar_of r)) rs).
    - apply H. apply Forall_forall. intros b I. apply in_map_iff in I. destruct I as (r & <- & _). cbn. discriminate.
    - unfold full. rewrite map_map. apply map_ext. intros r. cbn. unfold hlc3, Rhlc3. cbn. f_equal.
      destruct (Req_EM_T 3 0); [lra|]. reflexivity.
  Qed.
End Feeds.

Section C97.
  Variables (c : ctx xr) (rs : list rbar5).
  Hypothesis FO : fresh_over c (map bar_of rs).
  Let n := length rs.
  Lemma len_rc {A} (f : rbar5 -> A) : length (map f rs) = length rs.
  Proof. apply map_length. Qed.
  (** Aroon: 14 bars. *)
  Theorem C97_aroon : exists os, run_new aroon_default aroon_step c (ticks n) = Ok os /\ length os = n /\
    forall i o, nth_error os i = Some o ->
      match full_window 14 (firstn (S i) rs) with
      | None => o = (None, None)
      | Some w => exists ku kd, (ku < 14)%nat /\ (kd < 14)%nat /\
          o = (Some (Fin (100 * (14 - INR ku) / 14)), Some (Fin (100 * (14 - INR kd) / 14))) /\
          first_max (map (fun r => Some (Fin (rh r))) w) (13 - ku) /\ first_min (map (fun r => Some (Fin (rl r))) w) (13 - kd)
      end.
  Proof.
    assert (NN : forall f : rbar5 -> R, no_nan (present (map (fun r => Some (Fin (f r))) rs))).
    { intros f. clear. generalize rs. intros l. induction l; [constructor|]. cbn. constructor; [reflexivity|assumption]. }
    destruct (C47_aroon 14 c (map bar_of rs)) as (os & R & L & H); try exact FO; try lia; try (rewrite map_map; apply NN).
    { apply Forall_forall. intros b I. apply in_map_iff in I. destruct I as (r & <- & _). split; discriminate. }
    rewrite map_length in R, L. exists os. split; [exact R|]. split; [exact L|]. intros i o Hi. specialize (H i o Hi). cbn zeta in H.
    assert (Li : (i < length rs)%nat) by (rewrite <- L; apply nth_error_Some; congruence).
    unfold full_window. rewrite firstn_length, Nat.min_l by lia.
    destruct (Nat.ltb_spec (S i) 14), (Nat.leb_spec 14 (S i)); try lia; [exact H|].
    destruct H as (ku & kd & Ku & Kd & -> & M1 & M2). exists ku, kd. split; [exact Ku|]. split; [exact Kd|].
    rewrite (proj1 (C47_value_exact 14 ku ltac:(lia) Ku)), (proj1 (C47_value_exact 14 kd ltac:(lia) Kd)).
    rewrite !map_map, !firstn_map in M1, M2. replace (INR 14) with 14 by (cbn; lra).
    split; [reflexivity|]. unfold lastn in *. rewrite !skipn_map in M1, M2. rewrite !map_length in M1, M2. split; assumption.
  Qed.
  (** Donchian channels: 20 bars. *)
  Theorem C97_donchian : exists os, run_new don_default don_step c (ticks n) = Ok os /\ length os = n /\
    forall i r o, nth_error rs i = Some r -> nth_error os i = Some o ->
      match full_window 20 (firstn (S i) rs) with
      | None => o = (None, None, None)
      | Some w => exists u l, o = (Some (Fin u), Some (Fin ((u + l) / 2)), Some (Fin l)) /\ is_max u (map rh w) /\ is_min l (map rl w)
      end.
  Proof.
    destruct (C51_exact 20 c rs ltac:(lia) FO) as (os & R & L & H). exists os. split; [exact R|]. split; [exact L|].
    intros i r o Hr Ho. specialize (H i r o Hr Ho). destruct (full_window 20 _) as [w0|]; [|exact H]. destruct H as (u & l & A & B & C & _). eauto 8.
  Qed.
  (** Williams %R of the close: 14 bars. *)
  Theorem C97_williams : exists os, run_new wpr_default wpr_step c (ticks n) = Ok os /\ length os = n /\
    forall i r o, nth_error rs i = Some r -> nth_error os i = Some o ->
      match full_window 14 (firstn (S i) rs) with
      | None => o = None
      | Some w => exists u l, is_max u (map rh w) /\ is_min l (map rl w) /\ (u = l -> o = None) /\ (u <> l -> o = Some (Fin (100 * (rc r - u) / (u - l))))
      end.
  Proof.
    destruct (C52_exact 14 c _ _ rs ltac:(lia) (len_rc rc) (close_feeds _ _ FO) FO) as (os & R & L & H). exists os. split; [exact R|]. split; [exact L|].
    intros i r o Hr Ho. specialize (H i (rc r) r o (map_nth_error _ _ _ Hr) Hr Ho). destruct (full_window 14 _) as [w0|]; [|exact H].
    destruct H as (u & l & A & B & C & D). exists u, l. split; [exact A|]. split; [exact B|]. split; [exact C|]. intros N. apply (D N).
  Qed.
  (** Chaikin money flow: 20 bars. *)
  Theorem C97_money_flow : exists os, run_new cmf_default cmf_step c (ticks n) = Ok os /\ length os = n /\
    forall i o, nth_error os i = Some o ->
      match full_window 20 (firstn (S i) rs) with
      | None => o = None
      | Some w => (Rsum (map rv w) = 0 -> o = None) /\ (Rsum (map rv w) <> 0 -> o = Some (Fin (Rsum (map Rflow w) / Rsum (map rv w))))
      end.
  Proof.
    destruct (C54_exact 20 c rs ltac:(lia) FO) as (os & R & L & H). exists os. split; [exact R|]. split; [exact L|].
    intros i o Ho. specialize (H i o Ho). destruct (full_window 20 _) as [w0|]; [|exact H]. tauto.
  Qed.
  (** Chande momentum of the close: 9 changes. *)
  Theorem C97_momentum : exists os, run_new cmo_default cmo_step c (ticks n) = Ok os /\ length os = n /\
    forall i o, nth_error os i = Some o ->
      match full_window 9 (diffs (firstn (S i) (map rc rs))) with
      | None => o = None
      | Some w => let u := total_rise w in let d := total_fall w in
          (Forall (fun x => x = 0) w -> o = None) /\ (~ Forall (fun x => x = 0) w -> o = Some (Fin (100 * (u - d) / (u + d))))
      end.
  Proof.
    destruct (C55_exact 9 c _ _ ltac:(lia) (close_feeds _ _ FO)) as (os & R & L & H). rewrite len_rc in R, L. exists os. split; [exact R|]. split; [exact L|].
    intros i o Ho. specialize (H i o Ho). destruct (full_window 9 _) as [w0|]; [|exact H]. cbn zeta in *. split; [apply H|]. intros N. apply H. exact N.
  Qed.
  (** Ultimate oscillator: 7, 14 and 28 bars. *)
  Theorem C97_ultimate : exists os, run_new uo_default uo_step c (ticks n) = Ok os /\ length os = n /\
    forall i o, nth_error os i = Some o ->
      let h := firstn (S i) rs in
      match bp_ratio 7 h, bp_ratio 14 h, bp_ratio 28 h with
      | Some fast, Some mid, Some slow => o = Some (Fin (100 * (4 * fast + 2 * mid + slow) / 7))
      | _, _, _ => o = None
      end.
  Proof.
    destruct (C56_exact 7 14 28 c rs ltac:(lia) ltac:(lia) ltac:(lia) FO) as (os & R & L & H). exists os. split; [exact R|]. split; [exact L|].
    intros i o Ho. specialize (H i o Ho). cbn zeta in *. destruct (bp_ratio 7 (firstn (S i) rs)), (bp_ratio 14 (firstn (S i) rs)), (bp_ratio 28 (firstn (S i) rs)); tauto.
  Qed.
  (** Directional movement: 14 bars, ADX smoothed over 14. *)
  Theorem C97_directional : exists os, run_new dmi_default dmi_step c (ticks n) = Ok os /\ length os = n /\
    forall i o, nth_error os i = Some o ->
      let h := firstn (S i) rs in
      fst (fst o) = option_map Fin (di Rup 14 h) /\ snd (fst o) = option_map Fin (di Rdown 14 h) /\
      ((forall j p m, (j <= i)%nat -> di Rup 14 (firstn (S j) rs) = Some p -> di Rdown 14 (firstn (S j) rs) = Some m -> p + m <> 0) ->
         snd o = option_map (fun e => Fin (100 * e)) (Rsmooth (1 / 14) 14 (present (each_prefix (dx 14) h)))).
  Proof.
    destruct (C57_di 14 14 c rs ltac:(lia) ltac:(lia) FO) as (os & R & L & H). destruct (C57_adx 14 14 c rs ltac:(lia) ltac:(lia) FO) as (os' & R' & _ & H').
    rewrite R in R'. injection R' as <-. exists os. split; [exact R|]. split; [exact L|]. intros i o Ho. specialize (H i o Ho). specialize (H' i o Ho).
    cbn zeta in *. split; [apply H|]. split; [apply H|]. destruct H' as [H' _]. replace (INR 14) with 14 in H' by (cbn; lra). exact H'.
  Qed.
  (** Bollinger bands of the close: 20 bars, 2 deviations. *)
  Theorem C97_bollinger : exists pbs ws, run_new bb_default bbpb_step c (ticks n) = Ok pbs /\ run_new bb_default bbw_step c (ticks n) = Ok ws /\
    length pbs = n /\ length ws = n /\
    forall i r pb w, nth_error rs i = Some r -> nth_error pbs i = Some pb -> nth_error ws i = Some w ->
      match full_window 20 (firstn (S i) (map rc rs)) with
      | None => pb = None /\ w = None
      | Some win =>
          let m := Rmean win in let d := 2 * Rband_dev win in
          (d = 0 -> pb = None) /\ (d <> 0 -> pb = Some (Fin ((rc r - (m - d)) / ((m + d) - (m - d))))) /\
          (m = 0 -> w = None) /\ (m <> 0 -> w = Some (Fin (2 * d / m)))
      end.
  Proof.
    destruct (C59_exact 20 2 c _ _ ltac:(lia) (close_feeds _ _ FO)) as (pbs & ws & R & R' & L & L' & H). rewrite len_rc in R, R', L, L'.
    exists pbs, ws. split; [exact R|]. split; [exact R'|]. split; [exact L|]. split; [exact L'|].
    intros i r pb w Hr Hp Hw. specialize (H i (rc r) pb w (map_nth_error _ _ _ Hr) Hp Hw). destruct (full_window 20 _) as [w0|]; [|exact H].
    cbn zeta in *. destruct H as (A & B & C & D). split; [exact A|]. split; [intros N; apply (B N)|]. split; [exact C|exact D].
  Qed.
  (** Commodity channel index of (high + low + close) / 3: 20 bars. *)
  Theorem C97_cci : exists os, run_new cci_default cci_step c (ticks n) = Ok os /\ length os = n /\
    forall i r o, nth_error rs i = Some r -> nth_error os i = Some o ->
      match full_window 20 (firstn (S i) (map Rhlc3 rs)) with
      | None => o = None
      | Some w => (Rmad w = 0 -> o = None) /\ (Rmad w <> 0 -> o = Some (Fin ((Rhlc3 r - Rmean w) / (15 / 1000 * Rmad w))))
      end.
  Proof.
    destruct (C60_exact 20 c _ _ ltac:(lia) (hlc3_feeds _ _ FO)) as (os & R & L & H). rewrite len_rc in R, L. exists os. split; [exact R|]. split; [exact L|].
    intros i r o Hr Ho. exact (H i (Rhlc3 r) o (map_nth_error _ _ _ Hr) Ho).
  Qed.
  (** Relative vigor index: 10 bars. *)
  Theorem C97_vigor : exists os, run_new rvgi_default rvgi_step c (ticks n) = Ok os /\ length os = n /\
    forall i o, nth_error os i = Some o ->
      let h := firstn (S i) rs in
      fst o = option_map Fin (vigor 10 h) /\ snd o = option_map (fun w => Fin (Rswmean w)) (window 4 (each_prefix (vigor 10) h)).
  Proof.
    destruct (C63_exact 10 c rs ltac:(lia) FO) as (os & R & L & H). exists os. split; [exact R|]. split; [exact L|].
    intros i o Ho. specialize (H i o Ho). cbn zeta in *. tauto.
  Qed.
  (** Chande Kroll stop: 10 and 9 bars, 1 average true range. *)
  Theorem C97_stops : exists os, run_new cks_default cks_step c (ticks n) = Ok os /\ length os = n /\
    forall i fh fl sl ss, nth_error os i = Some (fh, fl, sl, ss) ->
      let h := firstn (S i) rs in
      let firsts := lastn 9 (each_prefix (Rfirst 10 1) h) in
      fh = option_map (fun r => Fin (fst r)) (Rfirst 10 1 h) /\ fl = option_map (fun r => Fin (snd r)) (Rfirst 10 1 h) /\
      ((length h < 9)%nat -> sl = None /\ ss = None) /\
      ((9 <= length h)%nat ->
         match sl with None => present (map (option_map snd) firsts) = [] | Some v => exists r, v = Fin r /\ is_min r (present (map (option_map snd) firsts)) end /\
         match ss with None => present (map (option_map fst) firsts) = [] | Some v => exists r, v = Fin r /\ is_max r (present (map (option_map fst) firsts)) end).
  Proof.
    destruct (C65_exact 10 9 1 c rs ltac:(lia) ltac:(lia) FO) as (os & R & L & H). exists os. split; [exact R|]. split; [exact L|]. exact H.
  Qed.
  (** Choppiness index: 14 bars. *)
  Theorem C97_choppiness : exists os, run_new chop_default chop_step c (ticks n) = Ok os /\ length os = n /\
    forall i o, nth_error os i = Some o ->
      match full_window 14 (firstn (S i) rs) with
      | None => o = None
      | Some w => exists u d s, is_max u (map rh w) /\ is_min d (map rl w) /\ s = Rsum (lastn 14 (Rtrs (firstn (S i) rs))) /\
          (u = d -> o = None) /\ (Forall consistent w -> u <> d -> o = Some (Fin (100 * Rlog10 (s / (u - d)) / Rlog10 14)))
      end.
  Proof.
    destruct (C66_exact 14 c rs ltac:(lia) FO) as (os & R & L & H). exists os. split; [exact R|]. split; [exact L|].
    intros i o Ho. specialize (H i o Ho). destruct (full_window 14 _) as [w0|]; [|exact H]. destruct H as (u & d & s & A & B & C & D & E).
    exists u, d, s. split; [exact A|]. split; [exact B|]. split; [exact C|]. split; [exact D|]. intros W N.
    replace (INR 14) with 14 in E by (cbn; lra). apply (E W N).
  Qed.
  (** Vortex: 14 pairs of bars. *)
  Theorem C97_vortex : exists os, run_new vortex_default vortex_step c (ticks n) = Ok os /\ length os = n /\
    forall i o, nth_error os i = Some o ->
      match full_window 14 (pairs (firstn (S i) rs)) with
      | None => o = (None, None)
      | Some w => o = (option_map Fin (vortex_ratio Rvp w), option_map Fin (vortex_ratio Rvm w))
      end.
  Proof.
    destruct (C67_exact 14 c rs ltac:(lia) FO) as (os & R & L & H). exists os. split; [exact R|]. split; [exact L|].
    intros i o Ho. specialize (H i o Ho). destruct (full_window 14 _) as [w0|]; [apply H|exact H].
  Qed.
  (** Coppock curve of the close: changes over 14 and 11 bars, weighted over 10. *)
  Theorem C97_coppock : exists os, run_new cop_default cop_step c (ticks n) = Ok os /\ length os = n /\
    forall i o, nth_error os i = Some o ->
      o = option_map (fun w => Fin (Rwmean w)) (window 10 (each_prefix (Rroc2 14 11) (firstn (S i) (map rc rs)))).
  Proof.
    destruct (C68_exact 14 11 10 c _ _ ltac:(lia) ltac:(lia) ltac:(lia) (proj2 FO) (close_feeds _ _ FO)) as (os & R & L & H). rewrite len_rc in R, L.
    exists os. split; [exact R|]. split; [exact L|]. exact H.
  Qed.
  (** Relative strength index of the close: 14. *)
  Theorem C97_rsi : run_new rsii_default rsii_step c (ticks n) = Ok (each_prefix (Rrsi 14) (map rc rs)).
  Proof.
    pose proof (rsii_run 14 c _ _ ltac:(lia) (close_feeds _ _ FO) ltac:(rewrite full_map; apply warmed_map_Some)) as R.
    unfold full in R at 1. rewrite !map_length in R. unfold rsii_default, n. rewrite R. f_equal. clear R.
    generalize (map rc rs). intros xs. induction xs as [|x xs IH] using rev_ind; [reflexivity|].
    unfold full in *. rewrite map_app in *. cbn [map]. rewrite !each_prefix_snoc, IH. f_equal. f_equal.
    pose proof (rsi_full 14 (xs ++ [x]) ltac:(lia)) as E. unfold full in E. rewrite map_app in E. exact E.
  Qed.
End C97.
(** The remaining three, bit for bit, as pipelines over the closes. *)
Section C97g.
  Context {F : Type} {NF : Num F}.
  Local Open Scope num_scope.
  Variables (c : ctx F) (bs : list (bar F)) (vs : list F).
  Hypothesis FO : fresh_over c bs.
  Hypothesis CL : map b_close bs = map Some vs.
  Let n := length bs.
  Lemma some_feeds : feeds c (src_box SClose) (map Some vs).
  Proof. rewrite <- CL. apply (src_feeds SClose c bs FO). apply Forall_forall. intros; exact I. Qed.
  Lemma some_len : length vs = n.
  Proof. unfold n. rewrite <- (map_length b_close bs), CL, map_length. reflexivity. Qed.
  (** Connors Rsi: 3, 2 and 100. *)
  Theorem C97_connors : exists rs us rocs ks os,
    run_new (rsi_new 3) rsi_step c (map Some vs) = Ok rs /\ run_new (rsi_new 2) rsi_step c (streaks (map Some vs)) = Ok us /\
    run_new (roc_new 1) roc_step c (map Some vs) = Ok rocs /\ run_new (prank_new 100) prank_step c rocs = Ok ks /\
    run_new crsi_default crsi_step c (ticks n) = Ok os /\
    os = zip3 (fun r u k => match r, u, k with Some r, Some u, Some k => Some ((r + u + k) / fZ 3) | _, _, _ => None end) rs us ks.
  Proof.
    rewrite <- some_len, <- (map_length Some vs).
    exact (C61_connors 3 2 100 c _ _ ltac:(lia) ltac:(lia) ltac:(lia) some_feeds (warmed_map_Some _)).
  Qed.
  (** Stochastic Rsi: 14, 14, 3 and 3. *)
  Theorem C97_stoch_rsi : exists rs ss ks ds os,
    run_new (rsi_new 14) rsi_step c (map Some vs) = Ok rs /\
    run_new (stoch_new 14) stoch_step c (map (fun r => (r, r, r)) rs) = Ok ss /\
    run_new (sma_new 3) sma_step c ss = Ok ks /\ run_new (sma_new 3) sma_step c ks = Ok ds /\
    run_new srsi_default srsi_step c (ticks n) = Ok os /\ os = combine ks ds.
  Proof.
    rewrite <- some_len, <- (map_length Some vs).
    exact (C62_stoch_rsi 14 14 3 3 c _ _ ltac:(lia) ltac:(lia) ltac:(lia) ltac:(lia) some_feeds (warmed_map_Some _)).
  Qed.
  (** Relative volatility index: deviation over 10, average over 14. *)
  Theorem C97_volatility : exists sds us ls os,
    run_new (stdev_new 10 true) stdev_step c (map Some vs) = Ok sds /\
    run_new (ema_new 14) ema_step c (zip3 up_dev (None :: map Some vs) (map Some vs) sds) = Ok us /\
    run_new (ema_new 14) ema_step c (zip3 down_dev (None :: map Some vs) (map Some vs) sds) = Ok ls /\
    run_new rvoli_default rvoli_step c (ticks n) = Ok os /\ os = zip up_share us ls.
  Proof.
    pose proof (C64_volatility 10 14 c (src_box SClose) n ltac:(lia) ltac:(lia)) as E.
    destruct (C64_no_panic 10 14 c (src_box SClose) vs ltac:(lia) ltac:(lia) ltac:(lia) some_feeds) as (os & R & _). rewrite some_len in R.
    unfold rvoli_default. rewrite R in E |- *.
    pose proof some_feeds as SF. unfold feeds in SF. rewrite map_length, some_len in SF. rewrite SF in E. cbn [rbind] in E.
    destruct (run_new (stdev_new 10 true) stdev_step c (map Some vs)) as [sds|]; [|discriminate]. cbn [rbind] in E.
    destruct (run_new (ema_new 14) ema_step c (zip3 up_dev _ _ sds)) as [us|] eqn:U; [|discriminate]. cbn [rbind] in E.
    destruct (run_new (ema_new 14) ema_step c (zip3 down_dev _ _ sds)) as [ls|] eqn:L; [|discriminate]. cbn [rbind] in E.
    exists sds, us, ls, os. repeat split; try assumption. congruence.
  Qed.
End C97g.
(** Complete bars exist, real and f64. *)
Example C97_ex : exists (c : ctx xr) rs, fresh_over c (map bar_of rs) /\ length rs = 2%nat /\ Forall consistent rs.
Proof.
  set (rs := [mkRB 10 12 9 11 100; mkRB 11 14 10 13 120]).
  exists (mkCtx (mkProvider (map b_open (map bar_of rs)) (map b_high (map bar_of rs)) (map b_low (map bar_of rs)) (map b_close (map bar_of rs)) (map b_volume (map bar_of rs)) [None; None] 0 1) 0 1 2 0 true), rs.
  split; [split; [repeat split|reflexivity]|]. split; [reflexivity|]. repeat constructor; cbn; lra.
Qed.
Example C97_ex64 : fresh_over ctx6 bars6 /\ map b_close bars6 = map Some (map q [11; 13; 12; 9; 10; 15]%Z).
Proof. split; [exact ctx6_fresh|reflexivity]. Qed.
