(** * MMetrics: pace/src/strategy/metrics/*.rs (computations only; the table
      printing and plotting are not modelled). *)
From Verif Require Export MStrategy.

(** ** Calendar year of a millisecond timestamp.
    [Bar::datetime] (core/context.rs:36-40) followed by chrono's [year()].
    chrono itself is outside the repository: the model uses the proleptic
    Gregorian calendar, and chrono's documented limit (dates up to year
    262143) as the panic condition of [from_timestamp_millis(..).unwrap()]. *)
Definition days_before_year (y : Z) : Z :=
  (let p := y - 1 in 365 * p + p / 4 - p / 100 + p / 400 - 719162)%Z.
(** chrono's `NaiveDateTime::year` (a Gregorian-year function stands for it), used in strategy/metrics/cobra_metrics.rs:227-301. *)
Definition year_of_days (d : Z) : Z :=
  (* days since 1970-01-01 -> calendar year (civil-from-days) *)
  (let z := d + 719468 in
   let era := z / 146097 in
   let doe := z - era * 146097 in
   let yoe := (doe - doe / 1460 + doe / 36524 - doe / 146096) / 365 in
   let doy := doe - (365 * yoe + yoe / 4 - yoe / 100) in
   yoe + era * 400 + (if 306 <=? doy then 1 else 0))%Z.
(** Bar::datetime(..).year(), core/context.rs:36-40. *)
Definition year_of_millis (ms : Z) : res Z :=
  (let y := year_of_days (ms / 86400000) in
   if (-262144 <=? y) && (y <=? 262143) then Ok y else Panic)%Z.

Section Metrics.
  Context {F : Type} {NF : Num F}.
  Local Open Scope num_scope.

  (** ** metrics/common.rs *)
  (** [profit_factor], :1-6. *)
  Definition profit_factor (gp gl : F) : option F :=
    if gl ==? fZ 0 then None else Some (gp / gl).
  (** [long_net_profit_ratio], :8-13. *)
  Definition long_net_profit_ratio (l s : F) : option F :=
    if s ==? fZ 0 then None else Some (l / s * fZ (-1)).
  (** [percent_profitable], :15-20. *)
  Definition percent_profitable (profitable total : nat) : option F :=
    if (total =? 0)%nat then None else Some (fnat profitable / fnat total).
  (** [avg_trade], :22-27; [avg_winning_trade], :29-34; [avg_losing_trade], :36-41. *)
  Definition avg_trade (net : F) (closed : nat) : option F :=
    if (closed =? 0)%nat then None else Some (net / fnat closed).
  (** strategy/metrics/common.rs:29-34. *)
  Definition avg_winning_trade (gp : F) (n : nat) : option F :=
    if (n =? 0)%nat then None else Some (gp / fnat n).
  (** strategy/metrics/common.rs:36-41. *)
  Definition avg_losing_trade (gl : F) (n : nat) : option F :=
    if (n =? 0)%nat then None else Some (gl / fnat n).
  (** [avg_win_loss_ratio], :43-48. *)
  Definition avg_win_loss_ratio (w l : F) : option F :=
    if l ==? fZ 0 then None else Some (w / l).
  (** [omega_ratio], :50-59; [sharpe_ratio], :61-66; [sortino_ratio], :68-73. *)
  Definition omega_ratio (pos neg rfr : F) : F :=
    if neg ==? fZ 0 then fZ 0 else (pos - rfr) / neg.
  (** strategy/metrics/common.rs:61-66. *)
  Definition sharpe_ratio (mean sd rfr : F) : F :=
    if sd ==? fZ 0 then fZ 0 else (mean - rfr) / sd.
  (** strategy/metrics/common.rs:68-73. *)
  Definition sortino_ratio (mean nsd rfr : F) : F :=
    if nsd ==? fZ 0 then fZ 0 else (mean - rfr) / nsd.
  (** [net_profit_percent] ... [max_run_up_percent], :75-101. *)
  Definition net_profit_percent (x capital : F) : F := x / capital.
  (** strategy/metrics/common.rs:79-81. *)
  Definition gross_profit_percent (x capital : F) : F := x / capital.
  (** strategy/metrics/common.rs:83-85. *)
  Definition gross_loss_percent (x capital : F) : F := x / capital.
  (** strategy/metrics/common.rs:87-89. *)
  Definition long_net_profit_percent (x capital : F) : F := x / capital.
  (** strategy/metrics/common.rs:91-93. *)
  Definition short_net_profit_percent (x capital : F) : F := x / capital.
  (** strategy/metrics/common.rs:95-97. *)
  Definition max_drawdown_percent (dd net_max : F) : F := dd / net_max.
  (** strategy/metrics/common.rs:99-101. *)
  Definition max_run_up_percent (ru bar_max : F) : F := ru / bar_max.
  (** [returns], :103-108. *)
  Definition returns_of (current previous : F) : F :=
    if (previous ==? fZ 0) || (current ==? fZ 0) then fZ 0 else current / previous - fZ 1.

  (** Rust `unwrap_or(0.0)`, e.g. strategy/metrics/tradingview_metrics.rs:271-349. *)
  Definition unwrap_or0 (o : option F) : F := match o with Some x => x | None => fZ 0 end.

  (** ** metrics/equity_metrics.rs *)
  (** [EquityMetricsData], :9-25. *)
  Record equity := mkEquity {
    e_equity : F; e_equity_min : F; e_equity_max : F;
    e_net : F; e_net_min : F; e_net_max : F;
    e_bop_min : F; e_bop_max : F;
    e_bar_min : F; e_bar_max : F
  }.
  (** [default], :28-41. *)
  Definition equity_new (k : F) : equity := mkEquity k k k k k k (fZ 0) (fZ 0) k k.
  (** [next], :59-93. *)
  Definition equity_step (c : ctx F) (e : equity) (s : strategy F) : res (equity * unit) :=
    let '(net, net_min, net_max) :=
      match s_on_exit s with
      | Some _ =>
          let net := sc_capital (s_config s) + sm_net (s_metrics s) in
          (net, fmin (e_net_min e) net, fmax (e_net_max e) net)
      | None => (e_net e, e_net_min e, e_net_max e)
      end in
    '(bop_min, bop_max) <-
      match split_last (s_trades s) with
      | Some (_, last) =>
          if t_closed last then Ok (e_bop_min e, e_bop_max e)
          else
            lowest_price <- bar_low c ;; lowest_price <- unwrap lowest_price ;;
            highest_price <- bar_high c ;; highest_price <- unwrap highest_price ;;
            let '(lo, hi) := match t_dir last with
                             | Short => (highest_price, lowest_price)
                             | Long => (lowest_price, highest_price)
                             end in
            a <- trade_cur_pnl last lo ;;
            b <- trade_cur_pnl last hi ;;
            Ok (a, b)
      | None => Ok (e_bop_min e, e_bop_max e)
      end ;;
    let eq := sm_equity (s_metrics s) in
    Ok (mkEquity eq (fmin (e_equity_min e) eq) (fmax (e_equity_max e) eq)
          net net_min net_max bop_min bop_max (net + bop_min) (net + bop_max), tt).

  (** ** metrics/returns.rs *)
  Record returns_st := mkReturns {
    r_delta : F; r_stdev : F; r_mean : F;            (* ReturnsData, :6-10 *)
    r_prev : F; r_stdev_st : var_st F; r_mean_st : mean_st F }.
  (** [build], :35-43. *)
  Definition returns_build (initial : F) (fast : bool) : returns_st :=
    mkReturns (fZ 0) (fZ 0) (fZ 0) initial (sstdev_build fast) mean_new.
  (** [next], :46-52: [prev_value] is not assigned. *)
  Definition returns_next (s : returns_st) (v : F) : returns_st :=
    let delta := v - r_prev s in
    let '(ss, sd) := sstdev_next (r_stdev_st s) delta in
    let '(ms, mn) := mean_next (r_mean_st s) delta in
    mkReturns delta sd mn (r_prev s) ss ms.
  (** Returns::next, strategy/metrics/returns.rs:47-51. *)
  Definition returns_step (c : ctx F) (s : returns_st) (v : F) : res (returns_st * unit) :=
    Ok (returns_next s v, tt).

  (** ** metrics/tradingview_metrics.rs *)
  (** [TradingViewMetricsData], :22-48. *)
  Record tvdata := mkTvData {
    tv_net_profit : F; tv_net_profit_percent : F;
    tv_gross_profit : F; tv_gross_profit_percent : F;
    tv_gross_loss : F; tv_gross_loss_percent : F;
    tv_max_run_up : F; tv_max_run_up_percent : F;
    tv_max_drawdown : F; tv_max_drawdown_percent : F;
    tv_sharpe : F; tv_sortino : F; tv_profit_factor : F;
    tv_open_pl : F;
    tv_closed : nat; tv_winning : nat; tv_losing : nat;
    tv_percent_profitable : F;
    tv_avg_trade : F; tv_avg_winning : F; tv_avg_losing : F; tv_ratio : F;
    tv_net_equity_history : list F;
    tv_max_drawdown_history : list F;
    tv_equity_history : list F
  }.
  (** [default], :51-79. *)
  Definition tvdata_default (k : F) : tvdata :=
    let z := fZ 0 in
    mkTvData z z z z z z z z z z z z z z 0 0 0 z z z z z [k] [z] [k].
  (** TradingViewMetrics and its data, strategy/metrics/tradingview_metrics.rs:22-48 and 247-254. *)
  Record tvmetrics := mkTv {
    tv_data : tvdata; tv_rfr : F; tv_returns : returns_st;
    tv_neg_stdev : var_st F; tv_eqm : equity }.
  (** [new], :257-267; default config (risk-free rate 0.02), :234-239. *)
  Definition tv_default_rfr : F := lit 2 100.
  (** TradingViewMetrics::new, strategy/metrics/tradingview_metrics.rs:257-267. *)
  Definition tv_new (s : strategy F) (rfr : F) : tvmetrics :=
    let k := sc_capital (s_config s) in
    mkTv (tvdata_default k) rfr (returns_build k false) (sstdev_build false) (equity_new k).
  (** [next], :270-350. *)
  Definition tv_step (c : ctx F) (t : tvmetrics) (s : strategy F) : res (tvmetrics * unit) :=
    let k := sc_capital (s_config s) in
    let m := s_metrics s in
    let d := tv_data t in
    '(eqm, _) <- equity_step c (tv_eqm t) s ;;
    let mdd := fmax (e_net_max eqm - e_bar_min eqm) (tv_max_drawdown d) in
    let mru := fmax (e_bar_max eqm - e_net_min eqm) (tv_max_run_up d) in
    let avg_w := unwrap_or0 (avg_winning_trade (sm_gross_profit m) (sm_winning m)) in
    let avg_l := unwrap_or0 (avg_losing_trade (sm_gross_loss m) (sm_losing m)) in
    let ret := returns_next (tv_returns t) (e_net eqm) in
    let '(nsd_st, nsd) := sstdev_next (tv_neg_stdev t) (fabs (fmin (fZ 0) (r_delta ret))) in
    let exited := is_some (s_on_exit s) in
    let data := mkTvData
      (sm_net m) (net_profit_percent (sm_net m) k)
      (sm_gross_profit m) (gross_profit_percent (sm_gross_profit m) k)
      (sm_gross_loss m) (gross_loss_percent (sm_gross_loss m) k)
      mru (max_run_up_percent mru (e_bar_max eqm))
      mdd (max_drawdown_percent mdd (e_net_max eqm))
      (sharpe_ratio (r_mean ret) (r_stdev ret) (tv_rfr t))
      (sortino_ratio (r_mean ret) nsd (tv_rfr t))
      (unwrap_or0 (profit_factor (sm_gross_profit m) (sm_gross_loss m)))
      (sm_open m)
      (sm_closed m) (sm_winning m) (sm_losing m)
      (unwrap_or0 (percent_profitable (sm_winning m) (sm_closed m)))
      (unwrap_or0 (avg_trade (sm_net m) (sm_closed m)))
      avg_w avg_l (unwrap_or0 (avg_win_loss_ratio avg_w avg_l))
      (if exited then tv_net_equity_history d ++ [e_net eqm] else tv_net_equity_history d)
      (if exited then tv_max_drawdown_history d ++ [mdd] else tv_max_drawdown_history d)
      (tv_equity_history d ++ [e_equity eqm]) in
    Ok (mkTv data (tv_rfr t) ret nsd_st eqm, tt).

  (** ** metrics/cobra_metrics.rs *)
  (** [CobraMetricsData], :20-30; [CobraMetricsConfig], :173-176. *)
  Record cobra := mkCobra {
    cb_estimated : bool; cb_start_year : option Z;
    cb_eq_max_dd : F; cb_intra_dd : F; cb_sortino : F; cb_sharpe : F;
    cb_profit_factor : F; cb_profitable : F; cb_trades : nat; cb_omega : F; cb_ls_ratio : F;
    cb_cur_dd : F; cb_annualized : F; cb_mean : mean_st F; cb_stdev : var_st F;
    cb_pos_sum : F; cb_neg_stdev : var_st F; cb_neg_sum : F; cb_prev_equity : F;
    cb_rfr : F; cb_eqm : equity }.
  (** [new], :205-223. *)
  Definition cobra_new (s : strategy F) (estimated : bool) (start_year : option Z) : cobra :=
    let z := fZ 0 in
    let k := sc_capital (s_config s) in
    mkCobra estimated start_year z z z z z z 0 z z z (fsqrt (fZ 365))
      mean_new (sstdev_build estimated) z (sstdev_build estimated) z k z (equity_new k).
  (** [datetime().unwrap().year()], core/context.rs:36-40. *)
  Definition bar_year (c : ctx F) : res Z :=
    t <- bar_time c ;; ns <- unwrap t ;; year_of_millis (wrap64 (ns / 1000000)%Z).
  (** the on-exit block of [next], cobra_metrics.rs:228-254. *)
  Definition cobra_on_exit (b : cobra) (s : strategy F) : res cobra :=
    match s_on_exit s with
    | None => Ok b
    | Some e =>
        let m := s_metrics s in
        price <- unwrap (t_entry_price e) ;;
        let pct := cb_cur_dd b / price in
        Ok (mkCobra (cb_estimated b) (cb_start_year b)
          (cb_eq_max_dd b) (fmax pct (cb_intra_dd b)) (cb_sortino b) (cb_sharpe b)
          (unwrap_or0 (profit_factor (sm_gross_profit m) (sm_gross_loss m)))
          (unwrap_or0 (percent_profitable (sm_winning m) (sm_closed m)))
          (sm_closed m) (cb_omega b)
          (unwrap_or0 (long_net_profit_ratio (sm_long_net m) (sm_short_net m)))
          (fZ 0) (cb_annualized b) (cb_mean b) (cb_stdev b) (cb_pos_sum b) (cb_neg_stdev b)
          (cb_neg_sum b) (cb_prev_equity b) (cb_rfr b) (cb_eqm b))
    end.
  (** [next], cobra_metrics.rs:226-302. *)
  Definition cobra_step (c : ctx F) (b : cobra) (s : strategy F) : res (cobra * unit) :=
    b <- cobra_on_exit b s ;;
    '(eqm, _) <- equity_step c (cb_eqm b) s ;;
    let max_dd := fmin (e_equity eqm / e_equity_max eqm - fZ 1) (cb_eq_max_dd b) in
    let cur_dd := fmax (e_net eqm - e_bar_min eqm) (cb_cur_dd b) in
    let ret := returns_of (e_equity eqm) (cb_prev_equity b) in
    let prev := e_equity eqm in
    skip <- match cb_start_year b with
            | Some y => by_ <- bar_year c ;; Ok (by_ <? y)%Z
            | None => Ok false
            end ;;
    if skip : bool then
      Ok (mkCobra (cb_estimated b) (cb_start_year b) max_dd (cb_intra_dd b) (cb_sortino b)
        (cb_sharpe b) (cb_profit_factor b) (cb_profitable b) (cb_trades b) (cb_omega b)
        (cb_ls_ratio b) cur_dd (cb_annualized b) (cb_mean b) (cb_stdev b) (cb_pos_sum b)
        (cb_neg_stdev b) (cb_neg_sum b) prev (cb_rfr b) eqm, tt)
    else
      let '(mean_s, rmean) := mean_next (cb_mean b) ret in
      let '(sd_s, rsd) := sstdev_next (cb_stdev b) ret in
      let pos := fmax (fZ 0) ret in
      let neg := fabs (fmin (fZ 0) ret) in
      let '(nsd_s, nsd) := sstdev_next (cb_neg_stdev b) neg in
      let pos_sum := cb_pos_sum b + pos in
      let neg_sum := cb_neg_sum b + neg in
      Ok (mkCobra (cb_estimated b) (cb_start_year b) max_dd (cb_intra_dd b)
        (sortino_ratio rmean nsd (cb_rfr b) * cb_annualized b)
        (sharpe_ratio rmean rsd (cb_rfr b) * cb_annualized b)
        (cb_profit_factor b) (cb_profitable b) (cb_trades b)
        (omega_ratio pos_sum neg_sum (cb_rfr b) * cb_annualized b)
        (cb_ls_ratio b) cur_dd (cb_annualized b) mean_s sd_s pos_sum nsd_s neg_sum prev
        (cb_rfr b) eqm, tt).
End Metrics.
Arguments equity : clear implicits.
Arguments tvmetrics : clear implicits.
Arguments tvdata : clear implicits.
Arguments cobra : clear implicits.
Arguments returns_st : clear implicits.
