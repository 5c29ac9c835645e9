(** * MTa: pace/src/ta/*.rs. *)
From Verif Require Export MTesting.

(** ta/cross.rs:3-7. *)
Inductive cross_mode := Over | Under.

(** ta/moving_average.rs:8-14. *)
Inductive ma_kind := SMA | EMA | RMA | SWMA.

Section Ta.
  Context {F : Type} {NF : Num F}.
  Local Open Scope num_scope.

  (** ** Sma, ta/simple_moving_average.rs *)
  Record sma_st := mkSma {
    sma_len : nat; sma_lenf : F; sma_sum : F;
    sma_cache : wcache (option F); sma_valid : wvalid }.
  (** [new], :19-29. *)
  Definition sma_new (len : nat) : res sma_st :=
    _ <- assertb (1 <=? len)%nat ;;
    v <- wv_new len ;;
    Ok (mkSma len (fnat len) (fZ 0) (wc_new len) v).
  (** [next], :32-54. *)
  Definition sma_step (c : ctx F) (s : sma_st) (value : option F) : res (sma_st * option F) :=
    if (sma_len s =? 1)%nat then Ok (s, value)
    else
      let cache := wc_push (sma_cache s) value in
      '(valid, is_valid) <- wv_step c (sma_valid s) value ;;
      let is_filled := wc_is_filled cache in
      first_value <- wc_first_unwrapped cache ;;
      let last_value := wc_last_unwrapped cache in
      let sum := match last_value with Some l => sma_sum s + l | None => sma_sum s end in
      let mean := if is_filled && is_valid then Some (sum / sma_lenf s) else None in
      let sum := match first_value with Some f => sum - f | None => sum end in
      Ok (mkSma (sma_len s) (sma_lenf s) sum cache valid, mean).

  (** ** Sum, ta/sum.rs *)
  Record sum_st := mkSum {
    su_len : nat; su_sum : F; su_cache : wcache (option F); su_valid : wvalid }.
  (** [new], :18-27. *)
  Definition sum_new (len : nat) : res sum_st :=
    _ <- assertb (1 <=? len)%nat ;;
    v <- wv_new len ;;
    Ok (mkSum len (fZ 0) (wc_new len) v).
  (** [next], :30-51. *)
  Definition sum_step (c : ctx F) (s : sum_st) (value : option F) : res (sum_st * option F) :=
    let cache := wc_push (su_cache s) value in
    first_value <- wc_first_unwrapped cache ;;
    let last_value := wc_last_unwrapped cache in
    let is_filled := wc_is_filled cache in
    '(valid, is_valid) <- wv_step c (su_valid s) value ;;
    let acc := match last_value with Some l => su_sum s + l | None => su_sum s end in
    let out := if is_filled && is_valid then Some acc else None in
    let acc := match first_value with Some f => acc - f | None => acc end in
    Ok (mkSum (su_len s) acc cache valid, out).

  (** ** Ema, ta/exponential_moving_average.rs *)
  Record ema_st := mkEma {
    ema_alpha : F; ema_len : nat; ema_sma : sma_st; ema_prev : option F }.
  (** [with_alpha], :21-30. *)
  Definition ema_with_alpha (len : nat) (alpha : F) : res ema_st :=
    _ <- assertb (1 <=? len)%nat ;;
    s <- sma_new len ;;
    Ok (mkEma alpha len s None).
  (** [new], :17-19. *)
  Definition ema_new (len : nat) : res ema_st :=
    ema_with_alpha len (fZ 2 / (fnat len + fZ 1)).
  (** [next], :33-54. *)
  Definition ema_step (c : ctx F) (s : ema_st) (value : option F) : res (ema_st * option F) :=
    if (ema_len s =? 1)%nat then Ok (s, value)
    else
      l1 <- usub (ema_len s) 1 ;;
      at_len <- at_length c l1 ;;
      if negb at_len then
        '(sma, _) <- sma_step c (ema_sma s) value ;;
        Ok (mkEma (ema_alpha s) (ema_len s) sma (ema_prev s), None)
      else
        match ema_prev s with
        | Some prev =>
            v <- unwrap value ;;
            let ema := ema_alpha s * v + (fZ 1 - ema_alpha s) * prev in
            Ok (mkEma (ema_alpha s) (ema_len s) (ema_sma s) (Some ema), Some ema)
        | None =>
            '(sma, m) <- sma_step c (ema_sma s) value ;;
            Ok (mkEma (ema_alpha s) (ema_len s) sma m, m)
        end.

  (** ** Rma, ta/running_moving_average.rs: [new], :15-22; [next], :25-29.
      The state is that of the inner [Ema]. *)
  Definition rma_new (len : nat) : res ema_st :=
    _ <- assertb (1 <=? len)%nat ;;
    ema_with_alpha len (fZ 1 / fnat len).
  (** Rma::next, ta/running_moving_average.rs:26-28. *)
  Definition rma_step : ctx F -> ema_st -> option F -> res (ema_st * option F) := ema_step.

  (** ** Swma, ta/symmetrically_weighted_moving_average.rs *)
  Record swma_st := mkSwma {
    sw_len : nat; sw_cache : wcache (option F); sw_valid : wvalid }.
  (** [WEIGHTS], :16. *)
  Definition swma_weights : list F :=
    [fZ 1 / fZ 6; fZ 2 / fZ 6; fZ 2 / fZ 6; fZ 1 / fZ 6].
  (** [new], :19-27. *)
  Definition swma_new : res swma_st :=
    v <- wv_new 4 ;; Ok (mkSwma 4 (wc_new 4) v).
  (** the fold in Swma::next, ta/symmetrically_weighted_moving_average.rs:31-49. *)
  Fixpoint swma_fold (values : list (option F)) (i : nat) (acc : F) : res F :=
    match values with
    | [] => Ok acc
    | v :: t =>
        x <- unwrap v ;;
        w <- vget swma_weights i ;;
        swma_fold t (S i) (acc + x * w)
    end.
  (** [next], :30-50. *)
  Definition swma_step (c : ctx F) (s : swma_st) (value : option F) : res (swma_st * option F) :=
    let cache := wc_push (sw_cache s) value in
    '(valid, is_valid) <- wv_step c (sw_valid s) value ;;
    let s' := mkSwma (sw_len s) cache valid in
    at_len <- at_length c (sw_len s) ;;
    if negb at_len || negb is_valid then Ok (s', None)
    else r <- swma_fold (wc_all cache) 0 (fZ 0) ;; Ok (s', Some r).

  (** ** Wma, ta/weighted_moving_average.rs *)
  Record wma_st := mkWma {
    wm_len : nat; wm_cache : wcache (option F); wm_valid : wvalid }.
  (** [new], :17-25. *)
  Definition wma_new (len : nat) : res wma_st :=
    _ <- assertb (1 <=? len)%nat ;;
    v <- wv_new len ;; Ok (mkWma len (wc_new len) v).
  (** the fold of :39-48; [values] newest first. *)
  Fixpoint wma_fold (len : nat) (values : list (option F)) (i : nat) (sum norm : F)
      : res (F * F) :=
    match values with
    | [] => Ok (sum, norm)
    | v :: t =>
        x <- unwrap v ;;
        d <- usub len i ;;
        let weight := fnat (d * len) in
        wma_fold len t (S i) (sum + x * weight) (norm + weight)
    end.
  (** [next], :28-54. *)
  Definition wma_step (c : ctx F) (s : wma_st) (value : option F) : res (wma_st * option F) :=
    let cache := wc_push (wm_cache s) value in
    '(valid, is_valid) <- wv_step c (wm_valid s) value ;;
    let s' := mkWma (wm_len s) cache valid in
    at_len <- at_length c (wm_len s) ;;
    if negb at_len || negb is_valid then Ok (s', None)
    else
      '(sum, norm) <- wma_fold (wm_len s) (rev (wc_all cache)) 0 (fZ 0) (fZ 0) ;;
      Ok (s', Some (sum / norm)).

  (** ** Change, ta/change.rs.  State: the input cache (its length is
      [length + 1]). *)
  (** [new], :16-23. *)
  Definition change_new (len : nat) : res (wcache (option F)) :=
    _ <- assertb (1 <=? len)%nat ;; Ok (wc_new (len + 1)).
  (** [next], :26-42. *)
  Definition change_step (c : ctx F) (s : wcache (option F)) (value : option F)
      : res (wcache (option F) * option F) :=
    let cache := wc_push s value in
    first_value <- wc_first_unwrapped cache ;;
    let last_value := wc_last_unwrapped cache in
    let is_filled := wc_is_filled cache in
    if negb is_filled || is_none first_value || is_none last_value then Ok (cache, None)
    else
      f <- unwrap first_value ;;
      if f ==? fZ 0 then Ok (cache, None)
      else l <- unwrap last_value ;; Ok (cache, Some (l - f)).

  (** ** Roc, ta/rate_of_change.rs *)
  (** [new], :16-23. *)
  Definition roc_new (len : nat) : res (wcache (option F)) :=
    _ <- assertb (1 <=? len)%nat ;; Ok (wc_new (len + 1)).
  (** [next], :26-45. *)
  Definition roc_step (c : ctx F) (s : wcache (option F)) (value : option F)
      : res (wcache (option F) * option F) :=
    let cache := wc_push s value in
    first_value <- wc_first_unwrapped cache ;;
    let last_value := wc_last_unwrapped cache in
    let is_filled := wc_is_filled cache in
    if negb is_filled || is_none first_value || is_none last_value then Ok (cache, None)
    else
      f <- unwrap first_value ;;
      if f ==? fZ 0 then Ok (cache, None)
      else l <- unwrap last_value ;; Ok (cache, Some (fZ 100 * (l - f) / f)).

  (** ** Dev, ta/dev.rs *)
  Record dev_st := mkDev { dv_len : nat; dv_sma : sma_st; dv_cache : wcache (option F) }.
  (** [new], :20-28. *)
  Definition dev_new (len : nat) : res dev_st :=
    _ <- assertb (1 <=? len)%nat ;;
    s <- sma_new len ;; Ok (mkDev len s (wc_new len)).
  (** [next], :31-56. *)
  Definition dev_step (c : ctx F) (s : dev_st) (value : option F) : res (dev_st * option F) :=
    if (dv_len s =? 1)%nat then Ok (s, Some (fZ 0))
    else
      let cache := wc_push (dv_cache s) value in
      '(sma, mean) <- sma_step c (dv_sma s) value ;;
      let s' := mkDev (dv_len s) sma cache in
      match mean with
      | None => Ok (s', None)
      | Some mean =>
          if negb (wc_is_filled cache) then Ok (s', None)
          else
            let sum := fsum (map (fun v => fabs (match v with Some x => x | None => mean end - mean))
                                 (wc_all cache)) in
            Ok (s', Some (sum / fnat (dv_len s)))
      end.

  (** ** Stdev, ta/stdev.rs *)
  Record stdev_st := mkStdev {
    sd_len : nat; sd_biased : bool; sd_sma : sma_st; sd_cache : wcache (option F) }.
  (** [new], :25-34. *)
  Definition stdev_new (len : nat) (biased : bool) : res stdev_st :=
    _ <- assertb (1 <=? len)%nat ;;
    s <- sma_new len ;; Ok (mkStdev len biased s (wc_new len)).
  (** [compute_sum], :36-42. *)
  Definition stdev_compute_sum (fst snd : F) : F :=
    let sum := fst + snd in
    if compare_with_precision sum (fZ 0) (lit 1 10000000000) then fZ 0 else sum.
  (** [next], :45-84. *)
  Definition stdev_step (c : ctx F) (s : stdev_st) (value : option F) : res (stdev_st * option F) :=
    if (sd_len s =? 1)%nat then Ok (s, if sd_biased s then Some (fZ 0) else None)
    else
      let cache := wc_push (sd_cache s) value in
      '(sma, mean) <- sma_step c (sd_sma s) value ;;
      let s' := mkStdev (sd_len s) (sd_biased s) sma cache in
      match mean with
      | None => Ok (s', None)
      | Some mean =>
          let mean := - mean in
          let sum := fsum (map (fun v => match v with
                                         | Some x => fsq (stdev_compute_sum x mean)
                                         | None => fZ 0
                                         end) (wc_all cache)) in
          if sd_biased s then Ok (s', Some (fsqrt (sum / fnat (sd_len s))))
          else
            n1 <- usub (sd_len s) 1 ;;
            Ok (s', Some (fsqrt (sum / fnat n1)))
      end.

  (** ** bars.rs *)
  (** [highest_bars], :6-9; [lowest_bars], :14-17.  The Rust result type is
      [Option<i32>], always [Some]. *)
  Definition bars_offset (len index : nat) : res Z :=
    neg32 (wrap32 (Z.of_nat (abs_diff (abs_diff len index) 1))).
  (** highest_bars, ta/bars.rs:6-9. *)
  Definition highest_bars (series : list (option F)) (len : nat) : res (option Z) :=
    i <- find_max_index series ;; z <- bars_offset len i ;; Ok (Some z).
  (** lowest_bars, ta/bars.rs:14-17. *)
  Definition lowest_bars (series : list (option F)) (len : nat) : res (option Z) :=
    i <- find_min_index series ;; z <- bars_offset len i ;; Ok (Some z).
  (** [highest], :22-25; [lowest], :30-33. *)
  Definition highest (series : list (option F)) : res (option F) :=
    i <- find_max_index series ;; vget series i.
  (** lowest, ta/bars.rs:30-33. *)
  Definition lowest (series : list (option F)) : res (option F) :=
    i <- find_min_index series ;; vget series i.

  (** ** Highest, ta/highest.rs; Lowest, ta/lowest.rs *)
  Record window_st := mkWindow { wi_len : nat; wi_cache : wcache (option F) }.
  (** [new], highest.rs:18-25, lowest.rs:17-24. *)
  Definition highest_new (len : nat) : res window_st :=
    _ <- assertb (1 <=? len)%nat ;; Ok (mkWindow len (wc_new len)).
  (** Lowest::new, ta/lowest.rs:17-24. *)
  Definition lowest_new (len : nat) : res window_st :=
    _ <- assertb (1 <=? len)%nat ;; Ok (mkWindow len (wc_new len)).
  (** [next], highest.rs:28-38. *)
  Definition highest_step (c : ctx F) (s : window_st) (value : option F)
      : res (window_st * option F) :=
    let s' := mkWindow (wi_len s) (wc_push (wi_cache s) value) in
    at_len <- at_length c (wi_len s) ;;
    if negb at_len then Ok (s', None)
    else v <- highest (wc_all (wi_cache s')) ;; Ok (s', v).
  (** [next], lowest.rs:27-37. *)
  Definition lowest_step (c : ctx F) (s : window_st) (value : option F)
      : res (window_st * option F) :=
    let s' := mkWindow (wi_len s) (wc_push (wi_cache s) value) in
    at_len <- at_length c (wi_len s) ;;
    if negb at_len then Ok (s', None)
    else v <- lowest (wc_all (wi_cache s')) ;; Ok (s', v).

  (** ** HighestBars, ta/highest_bars.rs; LowestBars, ta/lowest_bars.rs.
      State: the length. *)
  Definition highest_bars_new (len : nat) : res nat :=
    _ <- assertb (1 <=? len)%nat ;; Ok len.
  (** LowestBars::new, ta/lowest_bars.rs:13-19. *)
  Definition lowest_bars_new (len : nat) : res nat :=
    _ <- assertb (1 <=? len)%nat ;; Ok len.
  (** [next], highest_bars.rs:23-30. *)
  Definition highest_bars_step (c : ctx F) (len : nat) (_ : unit) : res (nat * option Z) :=
    at_len <- at_length c len ;;
    if negb at_len then Ok (len, None)
    else hs <- ctx_highs c len ;; z <- highest_bars hs len ;; Ok (len, z).
  (** [next], lowest_bars.rs:22-29. *)
  Definition lowest_bars_step (c : ctx F) (len : nat) (_ : unit) : res (nat * option Z) :=
    at_len <- at_length c len ;;
    if negb at_len then Ok (len, None)
    else ls <- ctx_lows c len ;; z <- lowest_bars ls len ;; Ok (len, z).

  (** ** Prank, ta/percent_rank.rs *)
  (** [new], :16-23. *)
  Definition prank_new (len : nat) : res window_st :=
    _ <- assertb (1 <=? len)%nat ;; Ok (mkWindow len (wc_new (len + 1))).
  (** [next], :26-53. *)
  Definition prank_step (c : ctx F) (s : window_st) (value : option F)
      : res (window_st * option F) :=
    let cache := wc_push (wi_cache s) value in
    let s' := mkWindow (wi_len s) cache in
    match value with
    | None => Ok (s', None)
    | Some last =>
        at_len <- at_length c (wi_len s + 1) ;;
        if negb at_len then Ok (s', None)
        else
          let all := wc_all cache in
          n1 <- usub (length all) 1 ;;
          values <- vslice all 0 n1 ;;
          let count := length (filter (fun v => match v with
                                                | Some x => x <=? last
                                                | None => false
                                                end) values) in
          Ok (s', Some (fnat count / fnat (wi_len s) * fZ 100))
    end.

  (** ** Rsi, ta/relative_strength_index.rs *)
  Record rsi_st := mkRsi {
    rsi_up : ema_st; rsi_down : ema_st; rsi_prev : option F;
    rsi_data_up : option F; rsi_data_down : option F }.
  (** [new], :23-36. *)
  Definition rsi_new (len : nat) : res rsi_st :=
    _ <- assertb (2 <=? len)%nat ;;
    u <- rma_new len ;; d <- rma_new len ;;
    Ok (mkRsi u d None None None).
  (** [next], :39-67. *)
  Definition rsi_step (c : ctx F) (s : rsi_st) (value : option F) : res (rsi_st * option F) :=
    let '(up_change, down_change) :=
      match rsi_prev s, value with
      | Some p, Some v =>
          let change := v - p in
          (Some (fmax change (fZ 0)), Some (- fmin change (fZ 0)))
      | _, _ => (None, None)
      end in
    '(u, up) <- rma_step c (rsi_up s) up_change ;;
    '(d, down) <- rma_step c (rsi_down s) down_change ;;
    match up, down with
    | Some up', Some down' =>
        let rs := up' / down' in
        let rsi := fZ 100 - fZ 100 / (fZ 1 + rs) in
        Ok (mkRsi u d value up down, Some rsi)
    | _, _ => Ok (mkRsi u d value (rsi_data_up s) (rsi_data_down s), None)
    end.

  (** ** Stoch, ta/stoch.rs *)
  (** [stoch], :11-32. *)
  Definition stoch (value : option F) (high low : list (option F)) (prev : option F)
      : res (option F) :=
    match value with
    | None => Ok None
    | Some v =>
        h <- highest high ;;
        l <- lowest low ;;
        match h, l with
        | Some h, Some l =>
            let diff := h - l in
            if diff ==? fZ 0 then Ok prev
            else Ok (Some (fZ 100 * (v - l) / diff))
        | _, _ => Ok None
        end
    end.
  (** Stoch, ta/stoch.rs:37-43. *)
  Record stoch_st := mkStoch {
    st_len : nat; st_prev : option F;
    st_high : wcache (option F); st_low : wcache (option F) }.
  (** [new], :46-55. *)
  Definition stoch_new (len : nat) : res stoch_st :=
    _ <- assertb (1 <=? len)%nat ;; Ok (mkStoch len None (wc_new len) (wc_new len)).
  (** [next], :58-78. *)
  Definition stoch_step (c : ctx F) (s : stoch_st) (x : option F * option F * option F)
      : res (stoch_st * option F) :=
    let '(value, high, low) := x in
    let hc := wc_push (st_high s) high in
    let lc := wc_push (st_low s) low in
    at_len <- at_length c (st_len s) ;;
    if negb at_len then Ok (mkStoch (st_len s) (st_prev s) hc lc, None)
    else
      r <- stoch value (wc_all hc) (wc_all lc) (st_prev s) ;;
      Ok (mkStoch (st_len s) r hc lc, r).

  (** ** True range, ta/true_range.rs *)
  (** [true_range], :4-29. *)
  Definition true_range (ch cl : F) (ph pl pc : option F) (handle_na : bool) : option F :=
    match ph, pl, pc with
    | Some _, Some _, Some pc =>
        Some (fmax (fmax (ch - cl) (fabs (ch - pc))) (fabs (cl - pc)))
    | _, _, _ => if handle_na then Some (ch - cl) else None
    end.
  (** [Tr::next], :49-60.  State: [handle_na]. *)
  Definition tr_step (c : ctx F) (handle_na : bool) (_ : unit) : res (bool * option F) :=
    h <- bar_high c ;; h <- unwrap h ;;
    l <- bar_low c ;; l <- unwrap l ;;
    ph <- ctx_high c 1 ;;
    pl <- ctx_low c 1 ;;
    pc <- ctx_close c 1 ;;
    Ok (handle_na, true_range h l ph pl pc handle_na).

  (** ** Atr, ta/average_true_range.rs *)
  Record atr_st := mkAtr { atr_tr : bool; atr_rma : ema_st }.
  (** [new], :16-24. *)
  Definition atr_new (len : nat) : res atr_st :=
    _ <- assertb (1 <=? len)%nat ;; r <- rma_new len ;; Ok (mkAtr true r).
  (** [next], :27-33. *)
  Definition atr_step (c : ctx F) (s : atr_st) (_ : unit) : res (atr_st * option F) :=
    '(t, tr) <- tr_step c (atr_tr s) tt ;;
    '(r, atr) <- rma_step c (atr_rma s) tr ;;
    Ok (mkAtr t r, atr).

  (** ** cross.rs *)
  (** [cross_over], :9-16. *)
  Definition cross_over (ca cb pa pb : F) : bool := fgtb ca cb && (pa <=? pb).
  (** [cross_under], :18-25. *)
  Definition cross_under (ca cb pa pb : F) : bool := (ca <? cb) && fgeb pa pb.
  (** State of [Cross], [CrossOver], [CrossUnder]: [(prev_a, prev_b)]. *)
  (** Cross, CrossOver, CrossUnder: ta/cross.rs:28-32. *)
  Definition cross_st : Type := option F * option F.
  (** Cross::new, ta/cross.rs:35-41. *)
  Definition cross_new : cross_st := (None, None).
  (** [Cross::next], cross.rs:44-64. *)
  Definition cross_step (c : ctx F) (s : cross_st) (x : option F * option F)
      : res (cross_st * option cross_mode) :=
    let r := match fst s, snd s, fst x, snd x with
             | Some pa, Some pb, Some a, Some b =>
                 if cross_over a b pa pb then Some Over
                 else if cross_under a b pa pb then Some Under else None
             | _, _, _, _ => None
             end in
    Ok (x, r).
  (** [CrossOver::next], cross_over.rs:22-34. *)
  Definition crossover_step (c : ctx F) (s : cross_st) (x : option F * option F)
      : res (cross_st * bool) :=
    let r := match fst s, snd s, fst x, snd x with
             | Some pa, Some pb, Some a, Some b => cross_over a b pa pb
             | _, _, _, _ => false
             end in
    Ok (x, r).
  (** [CrossUnder::next], cross_under.rs:22-34. *)
  Definition crossunder_step (c : ctx F) (s : cross_st) (x : option F * option F)
      : res (cross_st * bool) :=
    let r := match fst s, snd s, fst x, snd x with
             | Some pa, Some pb, Some a, Some b => cross_under a b pa pb
             | _, _, _, _ => false
             end in
    Ok (x, r).
  (** State of the threshold versions: [(threshold, prev_value)]. *)
  (** CrossThreshold, CrossOverThreshold, CrossUnderThreshold: ta/cross_threshold.rs:6-10. *)
  Record crosst_st := mkCrossT { ct_threshold : F; ct_prev : option F }.
  (** CrossThreshold::new, ta/cross_threshold.rs:13-19. *)
  Definition crosst_new (threshold : F) : crosst_st := mkCrossT threshold None.
  (** [CrossOverThreshold::next], cross_over_threshold.rs:21-34. *)
  Definition crossover_t_step (c : ctx F) (s : crosst_st) (value : option F)
      : res (crosst_st * bool) :=
    let t := ct_threshold s in
    let r := match ct_prev s, value with
             | Some p, Some v => cross_over v t p t
             | _, _ => false
             end in
    Ok (mkCrossT t value, r).
  (** [CrossUnderThreshold::next], cross_under_threshold.rs:22-35. *)
  Definition crossunder_t_step (c : ctx F) (s : crosst_st) (value : option F)
      : res (crosst_st * bool) :=
    let t := ct_threshold s in
    let r := match ct_prev s, value with
             | Some p, Some v => cross_under v t p t
             | _, _ => false
             end in
    Ok (mkCrossT t value, r).
  (** [CrossThreshold::next], cross_threshold.rs:22-41. *)
  Definition cross_t_step (c : ctx F) (s : crosst_st) (value : option F)
      : res (crosst_st * option cross_mode) :=
    let t := ct_threshold s in
    let r := match ct_prev s, value with
             | Some p, Some v =>
                 if cross_over v t p t then Some Over
                 else if cross_under v t p t then Some Under else None
             | _, _ => None
             end in
    Ok (mkCrossT t value, r).

  (** ** Ma, ta/moving_average.rs: [new], :28-45; [next], :47-51. *)
  Definition ma_new (kind : ma_kind) (len : nat) : res (obj F (option F) (option F)) :=
    match kind with
    | SMA => s <- sma_new len ;; Ok (box sma_step s)
    | EMA => s <- ema_new len ;; Ok (box ema_step s)
    | RMA => s <- rma_new len ;; Ok (box rma_step s)
    | SWMA => s <- swma_new ;; Ok (box swma_step s)
    end.
  (** Ma::next, ta/moving_average.rs:48-50. *)
  Definition ma_step : ctx F -> obj F (option F) (option F) -> option F ->
      res (obj F (option F) (option F) * option F) := ostep.
End Ta.
Arguments sma_st : clear implicits.
Arguments sum_st : clear implicits.
Arguments ema_st : clear implicits.
Arguments swma_st : clear implicits.
Arguments wma_st : clear implicits.
Arguments dev_st : clear implicits.
Arguments stdev_st : clear implicits.
Arguments window_st : clear implicits.
Arguments rsi_st : clear implicits.
Arguments stoch_st : clear implicits.
Arguments atr_st : clear implicits.
Arguments cross_st : clear implicits.
Arguments crosst_st : clear implicits.
