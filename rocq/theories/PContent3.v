(** * PContent3: the remaining indicators, continued; pipelines; strategies. *)
From Verif Require Export PContent2.

Section Content3.
  Context {F : Type} {NF : Num F}.
  Local Open Scope num_scope.
  Local Notation bars := (list (bar F)).
  Local Notation hist := (list (option F)).

  (** ** Rsi of a source *)
  Lemma rsii_run len c src xs : (2 <= len)%nat -> feeds c src xs -> warmed xs ->
    run_new (rsii_new src len) rsii_step c (ticks (length xs)) = Ok (each_prefix (rsi_out len) xs).
  Proof.
    intros L H W. destruct (rsi_makes len L) as (r1 & E1 & B1). specialize (B1 c).
    unfold run_new, rsii_new. rewrite E1. cbn [rbind]. clear E1.
    apply run_ticks with (inv := fun h s => reach ostep c src (ticks (length h)) (ri_src s) /\ reach rsi_step c r1 h (ri_rsi s));
      [cbn; repeat split; apply reach_nil|].
    intros h [ss s1] x t E (R0 & R1); cbn in R0, R1. unfold rsii_step; cbn [ri_src ri_rsi]. feed.
    call; [eapply warmed_hd; eassumption|]. done_calls.
  Qed.

  (** ** Stochastic Rsi *)
  Definition srsi_stoch l1 l2 i0 (h : hist) : option F :=
    stoch_out l2 i0 (each_prefix (fun p => (rsi_out l1 p, rsi_out l1 p, rsi_out l1 p)) h).
  Definition srsi_k l1 l2 k i0 (h : hist) : option F := sma_out k (each_prefix (srsi_stoch l1 l2 i0) h).
  Definition srsi_out l1 l2 k d i0 (h : hist) : option F * option F :=
    (srsi_k l1 l2 k i0 h, sma_out d (each_prefix (srsi_k l1 l2 k i0) h)).
  Lemma srsi_run l1 l2 k d c src xs : (2 <= l1)%nat -> (1 <= l2)%nat -> (1 <= k)%nat -> (1 <= d)%nat -> feeds c src xs -> warmed xs ->
    run_new (srsi_new src l1 l2 k d) srsi_step c (ticks (length xs)) = Ok (each_prefix (srsi_out l1 l2 k d (c_index c)) xs).
  Proof.
    intros L1 L2 L3 L4 H W. destruct (rsi_makes l1 L1) as (r1 & E1 & B1). destruct (stoch_makes l2 L2) as (r2 & E2 & B2).
    destruct (sma_makes k L3) as (r3 & E3 & B3). destruct (sma_makes d L4) as (r4 & E4 & B4).
    specialize (B1 c); specialize (B2 c); specialize (B3 c); specialize (B4 c).
    unfold run_new, srsi_new. rewrite E1, E2, E3, E4. cbn [rbind]. clear E1 E2 E3 E4.
    apply run_ticks with (inv := fun h s => reach ostep c src (ticks (length h)) (sr_src s) /\ reach rsi_step c r1 h (sr_rsi s) /\
        reach stoch_step c r2 (each_prefix (fun p => (rsi_out l1 p, rsi_out l1 p, rsi_out l1 p)) h) (sr_stoch s) /\
        reach sma_step c r3 (each_prefix (srsi_stoch l1 l2 (c_index c)) h) (sr_k s) /\
        reach sma_step c r4 (each_prefix (srsi_k l1 l2 k (c_index c)) h) (sr_d s));
      [cbn; repeat split; apply reach_nil|].
    intros h [ss s1 s2 s3 s4] x t E (R0 & R1 & R2 & R3 & R4); cbn in R0, R1, R2, R3, R4.
    unfold srsi_step; cbn [sr_src sr_rsi sr_stoch sr_k sr_d]. feed.
    call; [eapply warmed_hd; eassumption|]. call. call. call. unfold srsi_out. done_calls.
  Qed.

  (** ** Relative vigor index *)
  Definition rvgi_co (b : bar F) : option F := ps_diff (b_close b) (b_open b).
  Definition rvgi_hl (b : bar F) : option F := ps_diff (b_high b) (b_low b).
  Definition swma_of (k : bar F -> option F) (h : bars) : option F := swma_out 0 (map k h).
  Definition rvgi_rvi len (h : bars) : option F :=
    ps_div (sum_out len (each_prefix (swma_of rvgi_co) h)) (sum_out len (each_prefix (swma_of rvgi_hl) h)).
  Definition rvgi_out len (h : bars) : option F * option F := (rvgi_rvi len h, swma_out 0 (each_prefix (rvgi_rvi len) h)).
  Lemma rvgi_run len c bs : (1 <= len)%nat -> fresh_over c bs ->
    run_new (rvgi_new len) rvgi_step c (ticks (length bs)) = Ok (each_prefix (rvgi_out len) bs).
  Proof.
    intros L H. destruct swma_makes as (w & E1 & B1). destruct (sum_makes len L) as (m & E2 & B2).
    specialize (B1 c); specialize (B2 c). rewrite (fresh_c_index _ _ H) in *.
    unfold run_new, rvgi_new. rewrite E1, E2. cbn [rbind]. clear E1 E2.
    apply run_ticks with (inv := fun h s => reach swma_step c w (map rvgi_co h) (rg_co s) /\ reach swma_step c w (map rvgi_hl h) (rg_hl s) /\
       reach sum_step c m (each_prefix (swma_of rvgi_co) h) (rg_sco s) /\ reach sum_step c m (each_prefix (swma_of rvgi_hl) h) (rg_shl s) /\
       reach swma_step c w (each_prefix (rvgi_rvi len) h) (rg_sig s));
      [cbn; repeat split; apply reach_nil|].
    intros h [s1 s2 s3 s4 s5] b t E (R1 & R2 & R3 & R4 & R5); cbn in R1, R2, R3, R4, R5.
    unfold rvgi_step; cbn [rg_co rg_hl rg_sco rg_shl rg_sig]. reads. call. call. call. call. call. unfold rvgi_out. done_calls.
  Qed.

  (** ** Ultimate oscillator *)
  Definition uo_bp_of (h : bars) : option F := uo_bp (cur b_low h) (cur b_close h) (prv b_close h).
  Definition uo_tr_of (h : bars) : option F := uo_tr (cur b_high h) (cur b_low h) (prv b_close h).
  Definition uo_ratio len (h : bars) : option F := ps_div (sum_out len (each_prefix uo_bp_of h)) (sum_out len (each_prefix uo_tr_of h)).
  Definition uo_out l1 l2 l3 (h : bars) : option F := uo_value (uo_ratio l1 h) (uo_ratio l2 h) (uo_ratio l3 h).
  Lemma uo_run l1 l2 l3 c bs : (1 <= l1)%nat -> (1 <= l2)%nat -> (1 <= l3)%nat -> fresh_over c bs ->
    run_new (uo_new l1 l2 l3) uo_step c (ticks (length bs)) = Ok (each_prefix (uo_out l1 l2 l3) bs).
  Proof.
    intros L1 L2 L3 H. destruct (sum_makes l1 L1) as (m1 & E1 & B1). destruct (sum_makes l2 L2) as (m2 & E2 & B2).
    destruct (sum_makes l3 L3) as (m3 & E3 & B3).
    specialize (B1 c); specialize (B2 c); specialize (B3 c).
    unfold run_new, uo_new. rewrite E1, E2, E3. cbn [rbind]. clear E1 E2 E3.
    apply run_ticks with (inv := fun h s =>
       reach sum_step c m1 (each_prefix uo_bp_of h) (uo_sbp s) /\ reach sum_step c m1 (each_prefix uo_tr_of h) (uo_str s) /\
       reach sum_step c m2 (each_prefix uo_bp_of h) (uo_mbp s) /\ reach sum_step c m2 (each_prefix uo_tr_of h) (uo_mtr s) /\
       reach sum_step c m3 (each_prefix uo_bp_of h) (uo_lbp s) /\ reach sum_step c m3 (each_prefix uo_tr_of h) (uo_ltr s));
      [cbn; repeat split; apply reach_nil|].
    intros h [s1 s2 s3 s4 s5 s6] b t E (R1 & R2 & R3 & R4 & R5 & R6); cbn in R1, R2, R3, R4, R5, R6.
    unfold uo_step; cbn [uo_sbp uo_str uo_mbp uo_mtr uo_lbp uo_ltr]. reads.
    assert (PC : (if (0 <? c_index (ctx_at c (length h)))%nat then Ok (cur b_close h) else Ok None) = Ok (cur b_close h)).
    { rewrite ctx_at_index, (fresh_c_index _ _ H). cbn [Nat.add]. destruct h as [|y h] using rev_ind; [reflexivity|].
      destruct (Nat.ltb_spec 0 (length (h ++ [y]))); [reflexivity|]. rewrite app_length in *. cbn in *. lia. }
    rewrite PC. cbn [rbind].
    assert (I1 : uo_bp (b_low b) (b_close b) (cur b_close h) = uo_bp_of (h ++ [b])) by (unfold uo_bp_of; rewrite !cur_snoc, prv_snoc; reflexivity).
    assert (I2 : uo_tr (b_high b) (b_low b) (cur b_close h) = uo_tr_of (h ++ [b])) by (unfold uo_tr_of; rewrite !cur_snoc, prv_snoc; reflexivity).
    rewrite I1, I2. do 6 call. unfold uo_out, uo_ratio. done_calls.
  Qed.

  (** ** Vortex *)
  Definition vx_plus (h : bars) : option F := ps_abs (ps_diff (cur b_high h) (prv b_low h)).
  Definition vx_minus (h : bars) : option F := ps_abs (ps_diff (cur b_low h) (prv b_high h)).
  Definition vortex_out len (h : bars) : option F * option F :=
    (ps_div (sum_out len (each_prefix vx_plus h)) (sum_out len (each_prefix (atr_out 1) h)),
     ps_div (sum_out len (each_prefix vx_minus h)) (sum_out len (each_prefix (atr_out 1) h))).
  Lemma vortex_run len c bs : (1 <= len)%nat -> fresh_over c bs -> Forall has_hl bs ->
    run_new (vortex_new len) vortex_step c (ticks (length bs)) = Ok (each_prefix (vortex_out len) bs).
  Proof.
    intros L H D. destruct (atr_run 1 c bs (le_n 1) H D) as (a & Ea & HA).
    destruct (sum_makes len L) as (m & E1 & B1). specialize (B1 c).
    unfold run_new, vortex_new. rewrite E1, Ea. cbn [rbind]. clear E1 Ea.
    apply run_ticks with (inv := fun h s => reach sum_step c m (each_prefix vx_plus h) (vx_p s) /\
       reach sum_step c m (each_prefix vx_minus h) (vx_m s) /\ reach sum_step c m (each_prefix (atr_out 1) h) (vx_a s) /\
       reach atr_step c a (ticks (length h)) (vx_atr s));
      [cbn; repeat split; apply reach_nil|].
    intros h [s1 s2 s3 s4] b t E (R1 & R2 & R3 & R4); cbn in R1, R2, R3, R4.
    unfold vortex_step; cbn [vx_p vx_m vx_a vx_atr]. reads.
    assert (I1 : ps_abs (ps_diff (b_high b) (cur b_low h)) = vx_plus (h ++ [b])) by (unfold vx_plus; rewrite cur_snoc, prv_snoc; reflexivity).
    assert (I2 : ps_abs (ps_diff (b_low b) (cur b_high h)) = vx_minus (h ++ [b])) by (unfold vx_minus; rewrite cur_snoc, prv_snoc; reflexivity).
    rewrite I1, I2. call. call.
    destruct (tick_step _ _ _ _ _ _ _ _ _ HA E R4) as (a' & Ea & Ra). rewrite Ea; cbn [rbind]. clear R4 Ea.
    call. unfold vortex_out. done_calls.
  Qed.

  (** ** Directional movement index *)
  Definition dm_up (h : bars) : option F := ps_diff (cur b_high h) (prv b_high h).
  Definition dm_down (h : bars) : option F := ps_diff (prv b_low h) (cur b_low h).
  Definition plus_dm (h : bars) : option F := dmi_plus_dm (dm_up h) (dm_down h).
  Definition minus_dm (h : bars) : option F := dmi_minus_dm (dm_up h) (dm_down h).
  Definition dmi_rma len (f : bars -> option F) (h : bars) : option F := ema_out (rma_alpha_of len) len (each_prefix f h).
  Definition dmi_raw len (f : bars -> option F) (h : bars) : option F := times100 (ps_div (dmi_rma len f h) (dmi_rma len (tr_out false) h)).
  Definition dmi_di len (f : bars -> option F) (h : bars) : option F := last_present (each_prefix (dmi_raw len f) h).
  Definition dmi_dx_of len (h : bars) : option F := dmi_dx (dmi_di len plus_dm h) (dmi_di len minus_dm h).
  Definition dmi_out len lensig (h : bars) : option F * option F * option F :=
    (dmi_di len plus_dm h, dmi_di len minus_dm h, times100 (ema_out (rma_alpha_of lensig) lensig (each_prefix (dmi_dx_of len) h))).

  Lemma last_present_mono (h : hist) x : last_present h <> None -> last_present (h ++ [x]) <> None.
  Proof.
    unfold last_present. destruct x as [v|].
    - rewrite present_snoc_Some, newest_snoc. discriminate.
    - rewrite present_snoc_None. auto.
  Qed.
  Lemma dx_warmed len bs : warmed (each_prefix (dmi_dx_of len) bs).
  Proof.
    apply warmed_each_prefix. intros h x _ _ N. unfold dmi_dx_of, dmi_di in *. rewrite !each_prefix_snoc.
    assert (N1 : last_present (each_prefix (dmi_raw len plus_dm) h) <> None) by (intros Q; rewrite Q in N; apply N; reflexivity).
    assert (N2 : last_present (each_prefix (dmi_raw len minus_dm) h) <> None).
    { intros Q; rewrite Q in N; apply N. destruct (last_present (each_prefix (dmi_raw len plus_dm) h)); reflexivity. }
    apply last_present_mono with (x := dmi_raw len plus_dm (h ++ [x])) in N1.
    apply last_present_mono with (x := dmi_raw len minus_dm (h ++ [x])) in N2.
    destruct (last_present (_ ++ [dmi_raw len plus_dm _])); [|congruence]. destruct (last_present (_ ++ _)); [discriminate|congruence].
  Qed.
  Lemma dm_warmed (f : option F -> option F -> option F) bs : (forall u d, f (Some u) (Some d) <> None) -> Forall has_hl bs ->
    warmed (each_prefix (fun h => f (dm_up h) (dm_down h)) bs).
  Proof.
    intros FD D. apply warmed_each_prefix. intros h x (t & E) Hn _.
    destruct h as [|y h] using rev_ind; [congruence|]. clear IHh Hn. subst bs.
    pose proof (forall_mid _ _ _ _ D) as [X1 X2]. rewrite <- app_assoc in D. cbn in D. pose proof (forall_mid _ _ _ _ D) as [Y1 Y2].
    unfold dm_up, dm_down. rewrite !cur_snoc, !prv_snoc, !cur_snoc.
    destruct (b_high x); [|congruence]. destruct (b_low x); [|congruence]. destruct (b_high y); [|congruence]. destruct (b_low y); [|congruence].
    apply FD.
  Qed.
  Lemma dmi_run len lensig c bs : (1 <= len)%nat -> (1 <= lensig)%nat -> fresh_over c bs -> Forall has_hlc bs ->
    run_new (dmi_new len lensig) dmi_step c (ticks (length bs)) = Ok (each_prefix (dmi_out len lensig) bs).
  Proof.
    intros L1 L2 H D. pose proof (Forall_hlc_hl _ D) as D'.
    pose proof (tr_run false c bs H D') as HT.
    destruct (rma_makes len L1) as (m & E1 & B1). destruct (rma_makes lensig L2) as (m2 & E2 & B2).
    specialize (B1 c); specialize (B2 c). pose proof (fixnan_behaves c) as B3.
    unfold run_new, dmi_new. rewrite E1, E2. cbn [rbind]. clear E1 E2.
    apply run_ticks with (inv := fun h s => reach tr_step c false (ticks (length h)) (dm_tr s) /\
       reach rma_step c m (each_prefix (tr_out false) h) (dm_tr_rma s) /\
       reach rma_step c m (each_prefix plus_dm h) (dm_plus_rma s) /\ reach rma_step c m (each_prefix minus_dm h) (dm_minus_rma s) /\
       reach fixnan_step c fixnan_new (each_prefix (dmi_raw len plus_dm) h) (dm_plus_fix s) /\
       reach fixnan_step c fixnan_new (each_prefix (dmi_raw len minus_dm) h) (dm_minus_fix s) /\
       reach rma_step c m2 (each_prefix (dmi_dx_of len) h) (dm_adx s));
      [cbn; repeat split; apply reach_nil|].
    intros h [s0 s1 s2 s3 s4 s5 s6] b t E (R0 & R1 & R2 & R3 & R4 & R5 & R6); cbn in R0, R1, R2, R3, R4, R5, R6.
    assert (DH : Forall has_hlc (h ++ [b])) by (rewrite E in D; eapply forall_hd; exact D).
    unfold dmi_step; cbn [dm_tr dm_tr_rma dm_plus_rma dm_minus_rma dm_plus_fix dm_minus_fix dm_adx]. reads.
    assert (I1 : dmi_plus_dm (ps_diff (b_high b) (cur b_high h)) (ps_diff (cur b_low h) (b_low b)) = plus_dm (h ++ [b]))
      by (unfold plus_dm, dm_up, dm_down; rewrite !cur_snoc, !prv_snoc; reflexivity).
    assert (I2 : dmi_minus_dm (ps_diff (b_high b) (cur b_high h)) (ps_diff (cur b_low h) (b_low b)) = minus_dm (h ++ [b]))
      by (unfold minus_dm, dm_up, dm_down; rewrite !cur_snoc, !prv_snoc; reflexivity).
    rewrite I1, I2.
    destruct (tick_step _ _ _ _ _ _ _ _ _ HT E R0) as (a' & Ea & Ra). rewrite Ea; cbn [rbind]. clear R0 Ea.
    call; [apply tr_out_warmed_false; exact DH|].
    call; [apply dm_warmed; [intros u d; unfold dmi_plus_dm; destruct (_ && _); discriminate|apply Forall_hlc_hl; exact DH]|].
    call; [apply dm_warmed; [intros u d; unfold dmi_minus_dm; destruct (_ && _); discriminate|apply Forall_hlc_hl; exact DH]|].
    call. call. call; [apply dx_warmed|]. unfold dmi_out. done_calls.
  Qed.

  (** ** Relative volatility index: the two averages are taken as given runs *)
  Definition rvoli_ups len (xs : hist) : hist := each_prefix (fun p => rvoli_upper (momentum p) (stdev_out true len p)) xs.
  Definition rvoli_downs len (xs : hist) : hist := each_prefix (fun p => rvoli_lower (momentum p) (stdev_out true len p)) xs.
  Lemma run_st_prefix {S I O} (step : ctx F -> S -> I -> res (S * O)) c s0 xs ys os :
    run step c s0 (xs ++ ys) = Ok os -> run step c s0 xs = Ok (firstn (length xs) os).
  Proof.
    unfold run. rewrite run_st_app. destruct (run_st step c s0 xs) as [[s1 o1]|] eqn:E; [|discriminate]. cbn [rbind].
    destruct (run_st step (ctx_at c (length xs)) s1 ys) as [[s2 o2]|]; [|discriminate]. cbn [rbind].
    intros H; injection H as <-.
    assert (Lo : length o1 = length xs). { apply (run_length step c s0). unfold run. rewrite E. reflexivity. }
    rewrite <- Lo, firstn_app, Nat.sub_diag, firstn_all. cbn. rewrite app_nil_r. reflexivity.
  Qed.
  Lemma known_behaves {S I O} (step : ctx F -> S -> I -> res (S * O)) c s0 xs os d :
    run step c s0 xs = Ok os ->
    behaves step c s0 (fun h => exists t, xs = h ++ t) (fun h => nth (length h - 1) os d).
  Proof.
    intros H h (t & ->). pose proof (run_length _ _ _ _ _ H) as Lo. apply run_st_prefix in H. rewrite H. f_equal.
    rewrite app_length in Lo. apply nth_ext with (d := d) (d' := d).
    - rewrite length_each_prefix, firstn_length. lia.
    - intros n Hn. rewrite firstn_length in Hn. unfold each_prefix, prefixes.
      assert (Hn' : n < length h) by lia.
      assert (N1 : nth_error (map (fun h0 => nth (length h0 - 1) os d) (map (fun k => firstn (Datatypes.S k) h) (seq 0 (length h)))) n =
                   Some (nth n os d)).
      { rewrite map_map, nth_error_map, nth_error_nth' with (d := 0) by (rewrite seq_length; exact Hn').
        rewrite seq_nth by exact Hn'. cbn [option_map]. rewrite firstn_length. do 2 f_equal. lia. }
      rewrite (nth_error_nth _ _ _ N1).
      revert Lo. clear - Hn'. intros Lo. rewrite <- (firstn_skipn (length h) os) at 2.
      rewrite app_nth1; [reflexivity|]. rewrite firstn_length. lia.
  Qed.
  Lemma rvoli_run len ma c src xs us ls : (1 <= len)%nat -> (1 <= ma)%nat -> feeds c src xs ->
    run_new (ema_new ma) ema_step c (rvoli_ups len xs) = Ok us ->
    run_new (ema_new ma) ema_step c (rvoli_downs len xs) = Ok ls ->
    run_new (rvoli_new src len ma) rvoli_step c (ticks (length xs)) =
    Ok (map (fun ul => rvoli_value (fst ul) (snd ul)) (combine us ls)).
  Proof.
    intros L1 L2 H HU HL. destruct (stdev_makes true len L1) as (d & Ed & Bd). specialize (Bd c).
    unfold run_new in *. unfold rvoli_new. rewrite Ed. cbn [rbind].
    destruct (ema_new ma) as [m|] eqn:Em; [|discriminate]. cbn [rbind] in *.
    pose proof (run_length _ _ _ _ _ HU) as LU. pose proof (run_length _ _ _ _ _ HL) as LL.
    unfold rvoli_ups in LU. unfold rvoli_downs in LL. rewrite length_each_prefix in LU, LL.
    assert (EQ : map (fun ul => rvoli_value (fst ul) (snd ul)) (combine us ls) =
                 each_prefix (fun h : hist => rvoli_value (nth (length h - 1) us None) (nth (length h - 1) ls None)) xs).
    { clear - LU LL. apply nth_ext with (d := None) (d' := None).
      - rewrite map_length, combine_length, length_each_prefix. lia.
      - intros n Hn. rewrite map_length, combine_length in Hn.
        assert (N1 : nth_error (map (fun ul => rvoli_value (fst ul) (snd ul)) (combine us ls)) n = Some (rvoli_value (nth n us None) (nth n ls None))).
        { rewrite nth_error_map, nth_error_nth' with (d := (None, None)) by (rewrite combine_length; lia). rewrite combine_nth by lia. reflexivity. }
        assert (N2 : nth_error (each_prefix (fun h : hist => rvoli_value (nth (length h - 1) us None) (nth (length h - 1) ls None)) xs) n =
                     Some (rvoli_value (nth n us None) (nth n ls None))).
        { unfold each_prefix, prefixes. rewrite map_map, nth_error_map, nth_error_nth' with (d := 0) by (rewrite seq_length; lia).
          rewrite seq_nth by lia. cbn [option_map]. rewrite firstn_length. replace (Nat.min (S (0 + n)) (length xs) - 1)%nat with n by lia. reflexivity. }
        rewrite (nth_error_nth _ _ _ N1), (nth_error_nth _ _ _ N2). reflexivity. }
    rewrite EQ. clear EQ.
    apply (known_behaves _ _ _ _ _ None) in HU. apply (known_behaves _ _ _ _ _ None) in HL.
    apply run_ticks with (inv := fun h s => reach ostep c src (ticks (length h)) (rv_src s) /\ rv_prev s = join (newest h) /\
      reach stdev_step c d h (rv_sd s) /\ reach ema_step c m (rvoli_ups len h) (rv_up s) /\ reach ema_step c m (rvoli_downs len h) (rv_lo s));
      [cbn; repeat split; apply reach_nil|].
    intros h [ss s1 s2 s3 sp] x t E (R0 & P & R1 & R2 & R3); cbn in R0, P, R1, R2, R3. subst sp.
    unfold rvoli_step; cbn [rv_src rv_sd rv_up rv_lo rv_prev]. feed. rewrite <- momentum_snoc. call.
    assert (DU : forall g : hist -> option F, exists t', each_prefix g xs = each_prefix g (h ++ [x]) ++ t').
    { intros g. exists (skipn (length (h ++ [x])) (each_prefix g xs)).
      assert (Q : each_prefix g (h ++ [x]) = firstn (length (h ++ [x])) (each_prefix g xs)).
      { rewrite E. replace (h ++ x :: t) with ((h ++ [x]) ++ t) by (rewrite <- app_assoc; reflexivity).
        generalize (h ++ [x]). clear. intros l. induction t as [|y t IH] using rev_ind.
        - rewrite app_nil_r. rewrite <- (length_each_prefix g l), firstn_all. reflexivity.
        - rewrite app_assoc, each_prefix_snoc, firstn_app. rewrite <- IH. rewrite length_each_prefix, app_length.
          replace (length l - (length l + length t))%nat with 0 by lia. cbn. rewrite app_nil_r. reflexivity. }
      rewrite Q, firstn_skipn. reflexivity. }
    unfold rvoli_ups, rvoli_downs in *.
    revert HL. call; [apply DU|]. intros HL. clear HU. call; [apply DU|]. rewrite !length_each_prefix.
    eexists; split; [reflexivity|]. cbn. rewrite newest_snoc. repeat split; assumption.
  Qed.
End Content3.
