(** * MContent: pace/src/content/*.rs, the indicators. *)
From Verif Require Export MTa MMetrics.

Section Content.
  Context {F : Type} {NF : Num F}.
  Local Open Scope num_scope.

  (** [AnySrc], common/src.rs:4; [AnyMa], ta/moving_average.rs:17. *)
  Definition any_src : Type := obj F unit (option F).
  (** AnyMa, ta/moving_average.rs:16-18. *)
  Definition any_ma : Type := obj F (option F) (option F).
  (** [Src::new(ctx, kind).to_box()]. *)
  (** Src::new(..).to_box(), common/src.rs:37-43. *)
  Definition src_box (k : src_kind) : any_src := box (src_step k) tt.

  (** ** Aroon, content/aroon.rs *)
  (** [Aroon::new], :34-41: state [(length, highest_bars, lowest_bars)]. *)
  Record aroon_st := mkAroon { ar_len : nat; ar_hb : nat; ar_lb : nat }.
  (** content/aroon.rs:34-41 (new). *)
  Definition aroon_new (len : nat) : res aroon_st :=
    h <- highest_bars_new len ;; l <- lowest_bars_new len ;; Ok (mkAroon len h l).
  (** default config, :19-23. *)
  Definition aroon_default : res aroon_st := aroon_new 14.
  (** [Aroon::next], :45-62; output [(up, down)]. *)
  Definition aroon_value (len : nat) (z : Z) : F :=
    (fZ z + fnat len) / fnat len * fZ 100.
  (** content/aroon.rs:45-62 (next). *)
  Definition aroon_step (c : ctx F) (s : aroon_st) (_ : unit)
      : res (aroon_st * (option F * option F)) :=
    at_len <- at_length c (ar_len s) ;;
    if negb at_len then Ok (s, (None, None))
    else
      '(h, high) <- highest_bars_step c (ar_hb s) tt ;;
      '(l, low) <- lowest_bars_step c (ar_lb s) tt ;;
      Ok (mkAroon (ar_len s) h l,
          (option_map (aroon_value (ar_len s)) high, option_map (aroon_value (ar_len s)) low)).

  (** ** AwesomeOscillator, content/awesome_oscillator.rs *)
  Record ao_st := mkAo {
    ao_ssrc : any_src; ao_lsrc : any_src; ao_sma : any_ma; ao_lma : any_ma; ao_prev : option F }.
  (** [new], :44-50. *)
  Definition ao_new (ssrc lsrc : any_src) (sma lma : any_ma) : ao_st := mkAo ssrc lsrc sma lma None.
  (** default config, :26-33. *)
  Definition ao_default : res ao_st :=
    l <- ma_new SMA 34 ;; s <- ma_new SMA 5 ;; Ok (ao_new (src_box SHL2) (src_box SHL2) s l).
  (** [next], :54-74. *)
  Definition ao_step (c : ctx F) (s : ao_st) (_ : unit) : res (ao_st * option F) :=
    '(ss, sv) <- ostep c (ao_ssrc s) tt ;;
    '(ls, lv) <- ostep c (ao_lsrc s) tt ;;
    '(sm, sma) <- ostep c (ao_sma s) sv ;;
    '(lm, lma) <- ostep c (ao_lma s) lv ;;
    let ao := match sma, lma with Some a, Some b => Some (a - b) | _, _ => None end in
    let osc := match ao, ao_prev s with Some a, Some p => Some (a - p) | _, _ => None end in
    Ok (mkAo ss ls sm lm ao, osc).

  (** ** BalanceOfPower, content/balance_of_power.rs:35-53 *)
  Definition bop_value (close open high low : option F) : option F :=
    match close, open, high, low with
    | Some c, Some o, Some h, Some l => if h ==? l then None else Some ((c - o) / (h - l))
    | _, _, _, _ => None
    end.
  (** content/balance_of_power.rs:35-53 (next). *)
  Definition bop_step (c : ctx F) (s : unit) (_ : unit) : res (unit * option F) :=
    cl <- bar_close c ;; op <- bar_open c ;; hi <- bar_high c ;; lo <- bar_low c ;;
    Ok (tt, bop_value cl op hi lo).

  (** ** BollingerBandsPercentB, content/bollinger_bands_pb.rs *)
  Record bb_st := mkBb { bb_src : any_src; bb_mult : F; bb_basis : sma_st F; bb_sd : stdev_st F }.
  (** [new], :47-54 (the same in bollinger_bands_width.rs:47-54). *)
  Definition bb_new (src : any_src) (len : nat) (mult : F) : res bb_st :=
    b <- sma_new len ;; d <- stdev_new len true ;; Ok (mkBb src mult b d).
  (** default config, :29-35 (the same in bollinger_bands_width.rs:29-35). *)
  Definition bb_default : res bb_st := bb_new (src_box SClose) 20 (fZ 2).
  (** [next], bollinger_bands_pb.rs:58-81. *)
  Definition bbpb_value (mult : F) (src basis dev : option F) : option F :=
    match src, basis, dev with
    | Some src, Some basis, Some dev =>
        let dev := dev * mult in
        let upper := basis + dev in
        let lower := basis - dev in
        let diff := upper - lower in
        if diff ==? fZ 0 then None else Some ((src - lower) / diff)
    | _, _, _ => None
    end.
  (** content/bollinger_bands_pb.rs:58-81 (next). *)
  Definition bbpb_step (c : ctx F) (s : bb_st) (_ : unit) : res (bb_st * option F) :=
    '(ss, src) <- ostep c (bb_src s) tt ;;
    '(b, basis) <- sma_step c (bb_basis s) src ;;
    '(d, dev) <- stdev_step c (bb_sd s) src ;;
    Ok (mkBb ss (bb_mult s) b d, bbpb_value (bb_mult s) src basis dev).

  (** ** BollingerBandsWidth, content/bollinger_bands_width.rs: [next], :58-79. *)
  Definition bbw_value (mult : F) (src basis dev : option F) : option F :=
    match src, basis, dev with
    | Some src, Some basis, Some dev =>
        if basis ==? fZ 0 then None
        else
          let dev := dev * mult in
          let upper := basis + dev in
          let lower := basis - dev in
          Some ((upper - lower) / basis)
    | _, _, _ => None
    end.
  (** content/bollinger_bands_width.rs:58-79 (next). *)
  Definition bbw_step (c : ctx F) (s : bb_st) (_ : unit) : res (bb_st * option F) :=
    '(ss, src) <- ostep c (bb_src s) tt ;;
    '(b, basis) <- sma_step c (bb_basis s) src ;;
    '(d, dev) <- stdev_step c (bb_sd s) src ;;
    Ok (mkBb ss (bb_mult s) b d, bbw_value (bb_mult s) src basis dev).

  (** ** ChaikinMoneyFlow, content/chaikin_money_flow.rs *)
  Record cmf_st := mkCmf { cmf_vol : sum_st F; cmf_ad : sum_st F }.
  (** [new], :39-46. *)
  Definition cmf_new (len : nat) : res cmf_st :=
    v <- sum_new len ;; a <- sum_new len ;; Ok (mkCmf v a).
  (** content/chaikin_money_flow.rs:25-27 (default). *)
  Definition cmf_default : res cmf_st := cmf_new 20.
  (** [next], :50-74. *)
  Definition cmf_ad_value (close high low volume : option F) : option F :=
    match close, high, low, volume with
    | Some c, Some h, Some l, Some v =>
        if ((c ==? h) && (c ==? l)) || (h ==? l) then Some (fZ 0)
        else Some ((fZ 2 * c - l - h) / (h - l) * v)
    | _, _, _, _ => None
    end.
  (** content/chaikin_money_flow.rs:50-74 (next). *)
  Definition cmf_step (c : ctx F) (s : cmf_st) (_ : unit) : res (cmf_st * option F) :=
    cl <- bar_close c ;; hi <- bar_high c ;; lo <- bar_low c ;; vo <- bar_volume c ;;
    '(vs, volume_sum) <- sum_step c (cmf_vol s) vo ;;
    '(as_, ad_sum) <- sum_step c (cmf_ad s) (cmf_ad_value cl hi lo vo) ;;
    Ok (mkCmf vs as_, ps_div ad_sum volume_sum).

  (** ** ChandeKrollStop, content/chande_kroll_stop.rs *)
  Record cks_st := mkCks {
    ck_x : F; ck_atr : atr_st F; ck_h : window_st F; ck_l : window_st F;
    ck_ss : window_st F; ck_sl : window_st F }.
  (** [new], :56-66. *)
  Definition cks_new (p q : nat) (x : F) : res cks_st :=
    a <- atr_new p ;; h <- highest_new p ;; l <- lowest_new p ;;
    sh <- highest_new q ;; sl <- lowest_new q ;; Ok (mkCks x a h l sh sl).
  (** content/chande_kroll_stop.rs:28-34 (default). *)
  Definition cks_default : res cks_st := cks_new 10 9 (fZ 1).
  (** [next], :70-94; output [(first_high_stop, first_low_stop, stop_long,
      stop_short)]. *)
  Definition cks_first (x : F) (h l atr : option F) : option F * option F :=
    match h, l, atr with
    | Some h, Some l, Some a => (Some (h - x * a), Some (l + x * a))
    | _, _, _ => (None, None)
    end.
  (** content/chande_kroll_stop.rs:70-94 (next). *)
  Definition cks_step (c : ctx F) (s : cks_st) (_ : unit)
      : res (cks_st * (option F * option F * option F * option F)) :=
    '(a, atr) <- atr_step c (ck_atr s) tt ;;
    bh <- bar_high c ;; bl <- bar_low c ;;
    '(hs, h) <- highest_step c (ck_h s) bh ;;
    '(ls, l) <- lowest_step c (ck_l s) bl ;;
    let '(fh, fl) := cks_first (ck_x s) h l atr in
    '(sss, stop_short) <- highest_step c (ck_ss s) fh ;;
    '(sls, stop_long) <- lowest_step c (ck_sl s) fl ;;
    Ok (mkCks (ck_x s) a hs ls sss sls, (fh, fl, stop_long, stop_short)).

  (** ** ChandeMomentumOscillator, content/chande_momentum_oscillator.rs *)
  Record cmo_st := mkCmo { cmo_src : any_src; cmo_prev : option F; cmo_s1 : sum_st F; cmo_s2 : sum_st F }.
  (** [new], :46-58. *)
  Definition cmo_new (src : any_src) (len : nat) : res cmo_st :=
    _ <- assertb (1 <? len)%nat ;;
    a <- sum_new len ;; b <- sum_new len ;; Ok (mkCmo src None a b).
  (** content/chande_momentum_oscillator.rs:28-33 (default). *)
  Definition cmo_default : res cmo_st := cmo_new (src_box SClose) 9.
  (** [next], :62-86. *)
  Definition cmo_up (momm : option F) : option F := ps_max (Some (fZ 0)) momm.
  (** content/chande_momentum_oscillator.rs:62-86 (next). *)
  Definition cmo_down (momm : option F) : option F := ps_abs (ps_min (Some (fZ 0)) momm).
  (** content/chande_momentum_oscillator.rs:62-86 (next). *)
  Definition cmo_value (sm1 sm2 : option F) : option F :=
    match sm1, sm2 with
    | Some a, Some b => if a ==? - b then None else Some (fZ 100 * (a - b) / (a + b))
    | _, _ => None
    end.
  (** content/chande_momentum_oscillator.rs:62-86 (next). *)
  Definition cmo_step (c : ctx F) (s : cmo_st) (_ : unit) : res (cmo_st * option F) :=
    '(ss, src) <- ostep c (cmo_src s) tt ;;
    let momm := ps_diff src (cmo_prev s) in
    '(s1, sm1) <- sum_step c (cmo_s1 s) (cmo_up momm) ;;
    '(s2, sm2) <- sum_step c (cmo_s2 s) (cmo_down momm) ;;
    Ok (mkCmo ss src s1 s2, cmo_value sm1 sm2).

  (** ** ChoppinessIndex, content/choppiness_index.rs *)
  Record chop_st := mkChop {
    ch_atr : atr_st F; ch_sum : sum_st F; ch_log : F; ch_h : window_st F; ch_l : window_st F }.
  (** [new], :46-56. *)
  Definition chop_new (len : nat) : res chop_st :=
    a <- atr_new 1 ;; s <- sum_new len ;; h <- highest_new len ;; l <- lowest_new len ;;
    Ok (mkChop a s (flog10 (fnat len)) h l).
  (** content/choppiness_index.rs:27-29 (default). *)
  Definition chop_default : res chop_st := chop_new 14.
  (** [next], :60-80. *)
  Definition chop_value (loglen : F) (atr_sum h l : option F) : option F :=
    match atr_sum, h, l with
    | Some a, Some h, Some l =>
        let diff := h - l in
        if diff ==? fZ 0 then None else Some (fZ 100 * flog10 (a / diff) / loglen)
    | _, _, _ => None
    end.
  (** content/choppiness_index.rs:60-80 (next). *)
  Definition chop_step (c : ctx F) (s : chop_st) (_ : unit) : res (chop_st * option F) :=
    '(a, atr) <- atr_step c (ch_atr s) tt ;;
    '(su, atr_sum) <- sum_step c (ch_sum s) atr ;;
    bh <- bar_high c ;; bl <- bar_low c ;;
    '(hs, h) <- highest_step c (ch_h s) bh ;;
    '(ls, l) <- lowest_step c (ch_l s) bl ;;
    Ok (mkChop a su (ch_log s) hs ls, chop_value (ch_log s) atr_sum h l).

  (** ** CommodityChannelIndex, content/commodity_channel_index.rs *)
  Record cci_st := mkCci { cci_src : any_src; cci_sma : sma_st F; cci_dev : dev_st F }.
  (** [new], :44-51. *)
  Definition cci_new (src : any_src) (len : nat) : res cci_st :=
    m <- sma_new len ;; d <- dev_new len ;; Ok (mkCci src m d).
  (** content/commodity_channel_index.rs:27-32 (default). *)
  Definition cci_default : res cci_st := cci_new (src_box SHLC3) 20.
  (** [next], :55-63. *)
  Definition cci_value (src ma dev : option F) : option F :=
    ps_div (ps_diff src ma) (option_map (fun x => x * lit 15 1000) dev).
  (** content/commodity_channel_index.rs:55-63 (next). *)
  Definition cci_step (c : ctx F) (s : cci_st) (_ : unit) : res (cci_st * option F) :=
    '(ss, src) <- ostep c (cci_src s) tt ;;
    '(m, ma) <- sma_step c (cci_sma s) src ;;
    '(d, dev) <- dev_step c (cci_dev s) src ;;
    Ok (mkCci ss m d, cci_value src ma dev).

  (** ** ConnorsRelativeStrengthIndex, content/connors_relative_strength_index.rs *)
  Record crsi_st := mkCrsi {
    cr_src : any_src; cr_prev_src : option F; cr_prev_ud : option F;
    cr_rsi : rsi_st F; cr_ud_rsi : rsi_st F; cr_prank : window_st F; cr_roc : wcache (option F) }.
  (** [new], :56-67. *)
  Definition crsi_new (src : any_src) (len_rsi len_ud len_roc : nat) : res crsi_st :=
    r <- rsi_new len_rsi ;; u <- rsi_new len_ud ;; p <- prank_new len_roc ;; ro <- roc_new 1 ;;
    Ok (mkCrsi src None None r u p ro).
  (** content/connors_relative_strength_index.rs:33-40 (default). *)
  Definition crsi_default : res crsi_st := crsi_new (src_box SClose) 3 2 100.
  (** [prev_src == src] on [Option<f64>]. *)
  (** `==` on Option<f64>, content/connors_relative_strength_index.rs:69-89. *)
  Definition feqb_opt (a b : option F) : bool :=
    match a, b with
    | Some a, Some b => a ==? b
    | None, None => true
    | _, _ => false
    end.
  (** [compute_up_down], :69-89. *)
  Definition compute_up_down (src prev_src prev_ud : option F) : option F :=
    if feqb_opt prev_src src then Some (fZ 0)
    else
      let ud := ps_nz prev_ud in
      if match src, prev_src with Some s, Some p => fgtb s p | _, _ => false end then
        if ud <=? fZ 0 then Some (fZ 1) else Some (ud + fZ 1)
      else if fgeb ud (fZ 0) then Some (fZ (-1))
      else Some (ud - fZ 1).
  (** [next], :93-115. *)
  Definition crsi_value (rsi ud prank : option F) : option F :=
    match rsi, ud, prank with
    | Some a, Some b, Some p => Some ((a + b + p) / fZ 3)
    | _, _, _ => None
    end.
  (** content/connors_relative_strength_index.rs:93-115 (next). *)
  Definition crsi_step (c : ctx F) (s : crsi_st) (_ : unit) : res (crsi_st * option F) :=
    '(ss, src) <- ostep c (cr_src s) tt ;;
    '(r, rsi) <- rsi_step c (cr_rsi s) src ;;
    let ud := compute_up_down src (cr_prev_src s) (cr_prev_ud s) in
    '(u, ud_rsi) <- rsi_step c (cr_ud_rsi s) ud ;;
    '(ro, roc) <- roc_step c (cr_roc s) src ;;
    '(p, prank) <- prank_step c (cr_prank s) roc ;;
    Ok (mkCrsi ss src ud r u p ro, crsi_value rsi ud_rsi prank).

  (** ** CoppockCurve, content/coppock_curve.rs *)
  Record cop_st := mkCop {
    cp_src : any_src; cp_ma : wma_st F; cp_long : wcache (option F); cp_short : wcache (option F) }.
  (** [new], :48-56. *)
  Definition cop_new (src : any_src) (long_len short_len len : nat) : res cop_st :=
    m <- wma_new len ;; l <- roc_new long_len ;; s <- roc_new short_len ;; Ok (mkCop src m l s).
  (** content/coppock_curve.rs:28-35 (default). *)
  Definition cop_default : res cop_st := cop_new (src_box SClose) 14 11 10.
  (** [next], :60-72. *)
  Definition cop_step (c : ctx F) (s : cop_st) (_ : unit) : res (cop_st * option F) :=
    '(ss, src) <- ostep c (cp_src s) tt ;;
    '(l, long_roc) <- roc_step c (cp_long s) src ;;
    '(sh, short_roc) <- roc_step c (cp_short s) src ;;
    let roc := match long_roc, short_roc with Some a, Some b => Some (a + b) | _, _ => None end in
    '(m, curve) <- wma_step c (cp_ma s) roc ;;
    Ok (mkCop ss m l sh, curve).

  (** ** DirectionalMovementIndex, content/directional_movement_index.rs *)
  Record dmi_st := mkDmi {
    dm_tr : bool; dm_tr_rma : ema_st F; dm_plus_rma : ema_st F; dm_minus_rma : ema_st F;
    dm_plus_fix : option F; dm_minus_fix : option F; dm_adx : ema_st F }.
  (** [new], :61-73. *)
  Definition dmi_new (len lensig : nat) : res dmi_st :=
    t <- rma_new len ;; p <- rma_new len ;; m <- rma_new len ;; a <- rma_new lensig ;;
    Ok (mkDmi false t p m fixnan_new fixnan_new a).
  (** content/directional_movement_index.rs:33-38 (default). *)
  Definition dmi_default : res dmi_st := dmi_new 14 14.
  (** [plus_dm], [minus_dm], :86-106. *)
  Definition dmi_plus_dm (up down : option F) : option F :=
    match up, down with
    | Some u, Some d => if fgtb u d && fgtb u (fZ 0) then Some u else Some (fZ 0)
    | _, _ => None
    end.
  (** content/directional_movement_index.rs:97-106. *)
  Definition dmi_minus_dm (up down : option F) : option F :=
    match up, down with
    | Some u, Some d => if fgtb d u && fgtb d (fZ 0) then Some d else Some (fZ 0)
    | _, _ => None
    end.
  (** the input of the ADX average, :120-125. *)
  Definition dmi_dx (plus minus : option F) : option F :=
    match plus, minus with
    | Some p, Some m => Some (fabs (p - m) / (if p ==? - m then fZ 0 else p + m))
    | _, _ => None
    end.
  (** Auxiliary: `x * 100.0` inside an option, content/directional_movement_index.rs:77-129. *)
  Definition times100 (o : option F) : option F := option_map (fun x => x * fZ 100) o.
  (** [next], :77-129; output [(plus, minus, adx)]. *)
  Definition dmi_step (c : ctx F) (s : dmi_st) (_ : unit)
      : res (dmi_st * (option F * option F * option F)) :=
    high <- bar_high c ;; low <- bar_low c ;;
    prev_high <- ctx_high c 1 ;; prev_low <- ctx_low c 1 ;;
    let up := ps_diff high prev_high in
    let down := ps_diff prev_low low in
    '(t, tr) <- tr_step c (dm_tr s) tt ;;
    '(trr, tr_rma) <- rma_step c (dm_tr_rma s) tr ;;
    '(pr, plus_rma) <- rma_step c (dm_plus_rma s) (dmi_plus_dm up down) ;;
    '(mr, minus_rma) <- rma_step c (dm_minus_rma s) (dmi_minus_dm up down) ;;
    '(pf, plus) <- fixnan_step c (dm_plus_fix s) (times100 (ps_div plus_rma tr_rma)) ;;
    '(mf, minus) <- fixnan_step c (dm_minus_fix s) (times100 (ps_div minus_rma tr_rma)) ;;
    '(a, adx) <- rma_step c (dm_adx s) (dmi_dx plus minus) ;;
    Ok (mkDmi t trr pr mr pf mf a, (plus, minus, times100 adx)).

  (** ** DonchianChannels, content/donchian_channels.rs *)
  Record don_st := mkDon { dn_h : window_st F; dn_l : window_st F }.
  (** [new], :46-53. *)
  Definition don_new (len : nat) : res don_st :=
    h <- highest_new len ;; l <- lowest_new len ;; Ok (mkDon h l).
  (** content/donchian_channels.rs:26-28 (default). *)
  Definition don_default : res don_st := don_new 20.
  (** [next], :57-68; output [(upper, basis, lower)]. *)
  Definition don_basis (upper lower : option F) : option F :=
    option_map (fun x => x / fZ 2) (ps_add upper lower).
  (** content/donchian_channels.rs:57-68 (next). *)
  Definition don_step (c : ctx F) (s : don_st) (_ : unit)
      : res (don_st * (option F * option F * option F)) :=
    bh <- bar_high c ;; bl <- bar_low c ;;
    '(hs, upper) <- highest_step c (dn_h s) bh ;;
    '(ls, lower) <- lowest_step c (dn_l s) bl ;;
    Ok (mkDon hs ls, (upper, don_basis upper lower, lower)).

  (** ** Macd, content/macd.rs *)
  Record macd_st := mkMacd {
    mc_ssrc : any_src; mc_lsrc : any_src; mc_sma : any_ma; mc_lma : any_ma; mc_sig : any_ma }.
  (** default config, :27-35. *)
  Definition macd_default : res macd_st :=
    s <- ma_new EMA 12 ;; l <- ma_new EMA 26 ;; g <- ma_new EMA 9 ;;
    Ok (mkMacd (src_box SClose) (src_box SClose) s l g).
  (** [next], :56-71; output [(macd, signal)]. *)
  Definition macd_step (c : ctx F) (s : macd_st) (_ : unit)
      : res (macd_st * (option F * option F)) :=
    '(ss, sv) <- ostep c (mc_ssrc s) tt ;;
    '(ls, lv) <- ostep c (mc_lsrc s) tt ;;
    '(sm, sma) <- ostep c (mc_sma s) sv ;;
    '(lm, lma) <- ostep c (mc_lma s) lv ;;
    let macd := match sma, lma with Some a, Some b => Some (a - b) | _, _ => None end in
    '(g, signal) <- ostep c (mc_sig s) macd ;;
    Ok (mkMacd ss ls sm lm g, (macd, signal)).

  (** ** PriceOscillator, content/price_oscillator.rs *)
  Record po_st := mkPo { po_src : any_src; po_sma : any_ma; po_lma : any_ma }.
  (** default config, :25-31 (the long average is the shorter one). *)
  Definition po_default : res po_st :=
    l <- ma_new SMA 10 ;; s <- ma_new SMA 21 ;; Ok (mkPo (src_box SClose) s l).
  (** [next], :50-62. *)
  Definition po_value (sma lma : option F) : option F :=
    match sma, lma with
    | Some s, Some l => Some ((s - l) / l * fZ 100)
    | _, _ => None
    end.
  (** content/price_oscillator.rs:50-62 (next). *)
  Definition po_step (c : ctx F) (s : po_st) (_ : unit) : res (po_st * option F) :=
    '(ss, src) <- ostep c (po_src s) tt ;;
    '(sm, sma) <- ostep c (po_sma s) src ;;
    '(lm, lma) <- ostep c (po_lma s) src ;;
    Ok (mkPo ss sm lm, po_value sma lma).

  (** ** RelativeStrengthIndex, content/relative_strength_index.rs *)
  Record rsii_st := mkRsii { ri_src : any_src; ri_rsi : rsi_st F }.
  (** [new], :44-50. *)
  Definition rsii_new (src : any_src) (len : nat) : res rsii_st :=
    r <- rsi_new len ;; Ok (mkRsii src r).
  (** content/relative_strength_index.rs:28-33 (default). *)
  Definition rsii_default : res rsii_st := rsii_new (src_box SClose) 14.
  (** [next], :54-57. *)
  Definition rsii_step (c : ctx F) (s : rsii_st) (_ : unit) : res (rsii_st * option F) :=
    '(ss, src) <- ostep c (ri_src s) tt ;;
    '(r, v) <- rsi_step c (ri_rsi s) src ;;
    Ok (mkRsii ss r, v).

  (** ** RelativeVigorIndex, content/relative_vigor_index.rs *)
  Record rvgi_st := mkRvgi {
    rg_co : swma_st F; rg_hl : swma_st F; rg_sco : sum_st F; rg_shl : sum_st F; rg_sig : swma_st F }.
  (** [new], :51-61. *)
  Definition rvgi_new (len : nat) : res rvgi_st :=
    a <- swma_new ;; b <- swma_new ;; d <- sum_new len ;; e <- sum_new len ;; f <- swma_new ;;
    Ok (mkRvgi a b d e f).
  (** content/relative_vigor_index.rs:29-31 (default). *)
  Definition rvgi_default : res rvgi_st := rvgi_new 10.
  (** [next], :65-92; output [(rvi, sig)]. *)
  Definition rvgi_step (c : ctx F) (s : rvgi_st) (_ : unit)
      : res (rvgi_st * (option F * option F)) :=
    cl <- bar_close c ;; op <- bar_open c ;; hi <- bar_high c ;; lo <- bar_low c ;;
    '(a, co_swma) <- swma_step c (rg_co s) (ps_diff cl op) ;;
    '(b, hl_swma) <- swma_step c (rg_hl s) (ps_diff hi lo) ;;
    '(d, co_sum) <- sum_step c (rg_sco s) co_swma ;;
    '(e, hl_sum) <- sum_step c (rg_shl s) hl_swma ;;
    let rvi := ps_div co_sum hl_sum in
    '(f, sig) <- swma_step c (rg_sig s) rvi ;;
    Ok (mkRvgi a b d e f, (rvi, sig)).

  (** ** RelativeVolatilityIndex, content/relative_volatility_index.rs *)
  Record rvoli_st := mkRvoli {
    rv_src : any_src; rv_sd : stdev_st F; rv_up : ema_st F; rv_lo : ema_st F; rv_prev : option F }.
  (** [new], :50-59. *)
  Definition rvoli_new (src : any_src) (len ma_len : nat) : res rvoli_st :=
    d <- stdev_new len true ;; u <- ema_new ma_len ;; l <- ema_new ma_len ;;
    Ok (mkRvoli src d u l None).
  (** content/relative_volatility_index.rs:30-36 (default). *)
  Definition rvoli_default : res rvoli_st := rvoli_new (src_box SClose) 10 14.
  (** [upper], [lower], :71-78. *)
  Definition rvoli_upper (change sd : option F) : option F :=
    match change with
    | Some ch => if ch <=? fZ 0 then Some (fZ 0) else sd
    | None => None
    end.
  (** content/relative_volatility_index.rs:71-78. *)
  Definition rvoli_lower (change sd : option F) : option F :=
    match change with
    | Some ch => if fgtb ch (fZ 0) then Some (fZ 0) else sd
    | None => None
    end.
  (** content/relative_volatility_index.rs:63-97 (next). *)
  Definition rvoli_value (upper lower : option F) : option F :=
    match upper, lower with
    | Some u, Some l => if u ==? - l then None else Some (u / (u + l) * fZ 100)
    | _, _ => None
    end.
  (** [next], :63-97. *)
  Definition rvoli_step (c : ctx F) (s : rvoli_st) (_ : unit) : res (rvoli_st * option F) :=
    '(ss, src) <- ostep c (rv_src s) tt ;;
    '(d, sd) <- stdev_step c (rv_sd s) src ;;
    let change := ps_diff src (rv_prev s) in
    '(u, upper) <- ema_step c (rv_up s) (rvoli_upper change sd) ;;
    '(l, lower) <- ema_step c (rv_lo s) (rvoli_lower change sd) ;;
    Ok (mkRvoli ss d u l src, rvoli_value upper lower).

  (** ** StochRelativeStrengthIndex, content/stoch_relative_strength_index.rs *)
  Record srsi_st := mkSrsi {
    sr_src : any_src; sr_rsi : rsi_st F; sr_stoch : stoch_st F; sr_k : sma_st F; sr_d : sma_st F }.
  (** [new], :59-68. *)
  Definition srsi_new (src : any_src) (len_rsi len_stoch smooth_k smooth_d : nat) : res srsi_st :=
    r <- rsi_new len_rsi ;; t <- stoch_new len_stoch ;; k <- sma_new smooth_k ;; d <- sma_new smooth_d ;;
    Ok (mkSrsi src r t k d).
  (** content/stoch_relative_strength_index.rs:33-41 (default). *)
  Definition srsi_default : res srsi_st := srsi_new (src_box SClose) 14 14 3 3.
  (** [next], :72-81; output [(k, d)]. *)
  Definition srsi_step (c : ctx F) (s : srsi_st) (_ : unit)
      : res (srsi_st * (option F * option F)) :=
    '(ss, src) <- ostep c (sr_src s) tt ;;
    '(r, rsi) <- rsi_step c (sr_rsi s) src ;;
    '(t, st) <- stoch_step c (sr_stoch s) (rsi, rsi, rsi) ;;
    '(k, kv) <- sma_step c (sr_k s) st ;;
    '(d, dv) <- sma_step c (sr_d s) kv ;;
    Ok (mkSrsi ss r t k d, (kv, dv)).

  (** ** UltimateOscillator, content/ultimate_oscillator.rs *)
  Record uo_st := mkUo {
    uo_sbp : sum_st F; uo_str : sum_st F; uo_mbp : sum_st F; uo_mtr : sum_st F;
    uo_lbp : sum_st F; uo_ltr : sum_st F }.
  (** [new], :52-63. *)
  Definition uo_new (short mid long : nat) : res uo_st :=
    a <- sum_new short ;; b <- sum_new short ;; d <- sum_new mid ;; e <- sum_new mid ;;
    f <- sum_new long ;; g <- sum_new long ;; Ok (mkUo a b d e f g).
  (** content/ultimate_oscillator.rs:30-36 (default). *)
  Definition uo_default : res uo_st := uo_new 7 14 28.
  (** buying pressure and range, :79-82. *)
  Definition uo_bp (low close prev_close : option F) : option F :=
    ps_diff close (ps_min low prev_close).
  (** content/ultimate_oscillator.rs:79-82. *)
  Definition uo_tr (high low prev_close : option F) : option F :=
    ps_diff (ps_max high prev_close) (ps_min low prev_close).
  (** content/ultimate_oscillator.rs:67-105 (next). *)
  Definition uo_value (fast mid slow : option F) : option F :=
    match fast, mid, slow with
    | Some f, Some m, Some s => Some (fZ 100 * (fZ 4 * f + fZ 2 * m + s) / fZ 7)
    | _, _, _ => None
    end.
  (** [next], :67-105. *)
  Definition uo_step (c : ctx F) (s : uo_st) (_ : unit) : res (uo_st * option F) :=
    high <- bar_high c ;; low <- bar_low c ;; close <- bar_close c ;;
    prev_close <- (if (0 <? c_index c)%nat then ctx_close c 1 else Ok None) ;;
    let bp := uo_bp low close prev_close in
    let tr := uo_tr high low prev_close in
    '(a, fast_bp) <- sum_step c (uo_sbp s) bp ;;
    '(b, fast_tr) <- sum_step c (uo_str s) tr ;;
    '(d, mid_bp) <- sum_step c (uo_mbp s) bp ;;
    '(e, mid_tr) <- sum_step c (uo_mtr s) tr ;;
    '(f, slow_bp) <- sum_step c (uo_lbp s) bp ;;
    '(g, slow_tr) <- sum_step c (uo_ltr s) tr ;;
    Ok (mkUo a b d e f g,
        uo_value (ps_div fast_bp fast_tr) (ps_div mid_bp mid_tr) (ps_div slow_bp slow_tr)).

  (** ** VolumeOscillator, content/volume_oscillator.rs *)
  Record vo_st := mkVo { vo_sma : any_ma; vo_lma : any_ma }.
  (** default config, :28-33. *)
  Definition vo_default : res vo_st :=
    s <- ma_new EMA 5 ;; l <- ma_new EMA 10 ;; Ok (mkVo s l).
  (** [next], :52-61. *)
  Definition vo_value (sma lma : option F) : option F :=
    times100 (ps_div (ps_diff sma lma) lma).
  (** content/volume_oscillator.rs:52-61 (next). *)
  Definition vo_step (c : ctx F) (s : vo_st) (_ : unit) : res (vo_st * option F) :=
    v <- bar_volume c ;;
    '(sm, sma) <- ostep c (vo_sma s) v ;;
    '(lm, lma) <- ostep c (vo_lma s) v ;;
    Ok (mkVo sm lm, vo_value sma lma).

  (** ** Vortex, content/vortex.rs *)
  Record vortex_st := mkVortex {
    vx_p : sum_st F; vx_m : sum_st F; vx_a : sum_st F; vx_atr : atr_st F }.
  (** [new], :47-56. *)
  Definition vortex_new (len : nat) : res vortex_st :=
    p <- sum_new len ;; m <- sum_new len ;; a <- sum_new len ;; t <- atr_new 1 ;;
    Ok (mkVortex p m a t).
  (** content/vortex.rs:26-28 (default). *)
  Definition vortex_default : res vortex_st := vortex_new 14.
  (** [next], :60-83; output [(plus, minus)]. *)
  Definition vortex_step (c : ctx F) (s : vortex_st) (_ : unit)
      : res (vortex_st * (option F * option F)) :=
    high <- bar_high c ;; low <- bar_low c ;;
    prev_high <- ctx_high c 1 ;; prev_low <- ctx_low c 1 ;;
    '(p, vmp) <- sum_step c (vx_p s) (ps_abs (ps_diff high prev_low)) ;;
    '(m, vmm) <- sum_step c (vx_m s) (ps_abs (ps_diff low prev_high)) ;;
    '(t, atr) <- atr_step c (vx_atr s) tt ;;
    '(a, str) <- sum_step c (vx_a s) atr ;;
    Ok (mkVortex p m a t, (ps_div vmp str, ps_div vmm str)).

  (** ** WilliamsPercentRank, content/williams_percent_range.rs *)
  Record wpr_st := mkWpr { wp_src : any_src; wp_h : window_st F; wp_l : window_st F }.
  (** [new], :47-54. *)
  Definition wpr_new (src : any_src) (len : nat) : res wpr_st :=
    h <- highest_new len ;; l <- lowest_new len ;; Ok (mkWpr src h l).
  (** content/williams_percent_range.rs:30-35 (default). *)
  Definition wpr_default : res wpr_st := wpr_new (src_box SClose) 14.
  (** [next], :58-66. *)
  Definition wpr_value (src mx mn : option F) : option F :=
    times100 (ps_div (ps_diff src mx) (ps_diff mx mn)).
  (** content/williams_percent_range.rs:58-66 (next). *)
  Definition wpr_step (c : ctx F) (s : wpr_st) (_ : unit) : res (wpr_st * option F) :=
    '(ss, src) <- ostep c (wp_src s) tt ;;
    bh <- bar_high c ;; bl <- bar_low c ;;
    '(hs, mx) <- highest_step c (wp_h s) bh ;;
    '(ls, mn) <- lowest_step c (wp_l s) bl ;;
    Ok (mkWpr ss hs ls, wpr_value src mx mn).

  (** ** Strategies: indicator value -> trade direction *)

  (** The pattern shared by the threshold strategies: state
      [(cross_over, cross_under)]. *)
  (** the two crossings of every threshold strategy, e.g. content/relative_strength_index.rs:77-82. *)
  Definition thr_st : Type := crosst_st F * crosst_st F.
  (** e.g. RelativeStrengthIndexStrategy::new, content/relative_strength_index.rs:85-92. *)
  Definition thr_new (over under : F) : thr_st := (crosst_new over, crosst_new under).
  (** e.g. RelativeStrengthIndexStrategy::next, content/relative_strength_index.rs:96-109. *)
  Definition thr_step (c : ctx F) (s : thr_st) (v : option F) : res (thr_st * option direction) :=
    '(o, over) <- crossover_t_step c (fst s) v ;;
    '(u, under) <- crossunder_t_step c (snd s) v ;;
    Ok ((o, u), if over : bool then Some Long else if under : bool then Some Short else None).
  (** Constructors taking [(threshold_oversold, threshold_overbought)]: the
      cross-over detector is built on the oversold threshold, the cross-under
      detector on the overbought one: awesome_oscillator.rs:103-110,
      balance_of_power.rs:82-89, bollinger_bands_pb.rs:112-119,
      chaikin_money_flow.rs:103-110, chande_momentum_oscillator.rs:115-122,
      commodity_channel_index.rs:92-99, connors_relative_strength_index.rs:144-151,
      coppock_curve.rs:101-108, price_oscillator.rs:91-98,
      relative_strength_index.rs:85-92, relative_volatility_index.rs:126-133,
      stoch_relative_strength_index.rs:110-117, volume_oscillator.rs:89-95;
      their [next] is [thr_step]: awesome_oscillator.rs:114-127,
      balance_of_power.rs:93-106, bollinger_bands_pb.rs:123-136,
      chaikin_money_flow.rs:114-127, chande_momentum_oscillator.rs:126-139,
      commodity_channel_index.rs:103-116, connors_relative_strength_index.rs:155-168,
      coppock_curve.rs:112-125, price_oscillator.rs:102-115,
      relative_strength_index.rs:96-109, relative_volatility_index.rs:137-150,
      volume_oscillator.rs:99-112. *)
  Definition osc_strategy_new (oversold overbought : F) : thr_st := thr_new oversold overbought.
  (** [StochRelativeStrengthIndexStrategy::next],
      stoch_relative_strength_index.rs:123-136: only [k] is looked at. *)
  Definition srsi_strategy_step (c : ctx F) (s : thr_st) (kd : option F * option F)
      : res (thr_st * option direction) := thr_step c s (fst kd).
  (** [WilliamsPercentRankStrategy::new], williams_percent_range.rs:95-102:
      the two thresholds the other way round; [next], :106-119. *)
  Definition wpr_strategy_new (oversold overbought : F) : thr_st := thr_new overbought oversold.
  (** [MacdStrategy::new], macd.rs:81-87; [next], :91-102. *)
  Definition macd_strategy_new : thr_st := thr_new (fZ 0) (fZ 0).

  (** default thresholds: bollinger_bands_pb.rs:84-85,
      chande_momentum_oscillator.rs:89-90, commodity_channel_index.rs:66-67,
      connors_relative_strength_index.rs:118-119, relative_strength_index.rs:60-61,
      relative_volatility_index.rs:100-101, stoch_relative_strength_index.rs:84-85,
      williams_percent_range.rs:69-70; [(0, 0)] for awesome_oscillator.rs:77-78,
      balance_of_power.rs:56-57, chaikin_money_flow.rs:77-78,
      coppock_curve.rs:75-76, price_oscillator.rs:65-66, volume_oscillator.rs:64-65. *)
  Definition zero_strategy_default : thr_st := osc_strategy_new (fZ 0) (fZ 0).
  (** content/bollinger_bands_pb.rs:84-98. *)
  Definition bbpb_strategy_default : thr_st := osc_strategy_new (fZ 0) (fZ 1).
  (** content/chande_momentum_oscillator.rs:89-103. *)
  Definition cmo_strategy_default : thr_st := osc_strategy_new (fZ (-50)) (fZ 50).
  (** content/commodity_channel_index.rs:66-80. *)
  Definition cci_strategy_default : thr_st := osc_strategy_new (fZ (-200)) (fZ 200).
  (** content/connors_relative_strength_index.rs:118-132. *)
  Definition crsi_strategy_default : thr_st := osc_strategy_new (fZ 20) (fZ 80).
  (** content/relative_strength_index.rs:60-74. *)
  Definition rsi_strategy_default : thr_st := osc_strategy_new (fZ 30) (fZ 70).
  (** content/relative_volatility_index.rs:100-114. *)
  Definition rvoli_strategy_default : thr_st := osc_strategy_new (fZ 20) (fZ 80).
  (** content/stoch_relative_strength_index.rs:84-98. *)
  Definition srsi_strategy_default : thr_st := osc_strategy_new (fZ 20) (fZ 80).
  (** content/williams_percent_range.rs:69-83. *)
  Definition wpr_strategy_default : thr_st := wpr_strategy_new (fZ (-80)) (fZ (-20)).

  (** [CrossMode] to direction. *)
  (** the match on CrossMode, e.g. content/vortex.rs:102-115. *)
  Definition mode_dir (m : option cross_mode) : option direction :=
    match m with Some Over => Some Long | Some Under => Some Short | None => None end.
  (** [VortexStrategy::next], vortex.rs:102-115 (input [(plus, minus)]);
      [RelativeVigorIndexStrategy::next], relative_vigor_index.rs:111-124
      (input [(rvi, sig)]). *)
  Definition cross_strategy_step (c : ctx F) (s : cross_st F) (x : option F * option F)
      : res (cross_st F * option direction) :=
    '(s', m) <- cross_step c s x ;; Ok (s', mode_dir m).
  (** [DirectionalMovementIndexStrategy::next],
      directional_movement_index.rs:169-194; state [(strong threshold, cross)]
      (the weak threshold only feeds an unused local). *)
  Definition dmi_strategy_new (strong : F) : F * cross_st F := (strong, cross_new).
  (** content/directional_movement_index.rs:132-146. *)
  Definition dmi_strategy_default : F * cross_st F := dmi_strategy_new (fZ 25).
  (** content/directional_movement_index.rs:169-194. *)
  Definition dmi_strategy_step (c : ctx F) (s : F * cross_st F)
      (x : option F * option F * option F) : res ((F * cross_st F) * option direction) :=
    let '(plus, minus, adx) := x in
    let strong := match adx with Some a => fgtb a (fst s) | None => false end in
    '(cr, m) <- cross_step c (snd s) (plus, minus) ;;
    Ok ((fst s, cr), if strong then mode_dir m else None).

  (** [AroonStrategy], aroon.rs:65-149. *)
  Record aroons_st := mkAroonS {
    as_up : F; as_down : F; as_cross_mode : bool; as_cross : cross_st F }.
  (** content/aroon.rs:81-93. *)
  Definition aroons_new : aroons_st := mkAroonS (fZ 0) (fZ 0) false cross_new.
  (** trend strength, :98-118. *)
  Definition aroon_strength (a b : option F) : F :=
    match a, b with
    | Some a, Some b =>
        if fgtb a (fZ 50) && (b <? fZ 50) then fZ 1 - (fZ 100 - a) / fZ 50 else fZ 0
    | _, _ => fZ 0
    end.
  (** [next], :97-148; input [(up, down)]. *)
  Definition aroons_step (c : ctx F) (s : aroons_st) (x : option F * option F)
      : res (aroons_st * option direction) :=
    let up := aroon_strength (fst x) (snd x) in
    let down := aroon_strength (snd x) (fst x) in
    '(cr, cross) <- cross_step c (as_cross s) (snd x, fst x) ;;
    let cm := if is_some cross then true else as_cross_mode s in
    let '(up_c, down_c, cm) :=
      if cm then
        if fgeb up (fZ 1) then (true, false, false)
        else if fgeb down (fZ 1) then (false, true, false)
        else (false, false, true)
      else (false, false, false) in
    Ok (mkAroonS up down cm cr,
        if up_c : bool then Some Long else if down_c : bool then Some Short else None).
End Content.
