(** * MStrategy: pace/src/strategy/trade.rs and pace/src/strategy/strategy.rs.
    (pace/src/strategy/strategy_context.rs is not part of the crate's module
    tree and is not modelled.) *)
From Verif Require Export MTesting.

(** strategy/trade.rs:3-7. *)
Inductive direction := Long | Short.
(** derived PartialEq of TradeDirection, strategy/trade.rs:3-7. *)
Definition dir_eqb (a b : direction) : bool :=
  match a, b with Long, Long | Short, Short => true | _, _ => false end.
(** [get_opposite], trade.rs:10-15. *)
Definition get_opposite (d : direction) : direction :=
  match d with Long => Short | Short => Long end.
(** [ArraySnapshot<Option<TradeDirection>>::assert],
    testing/array_snapshot.rs:217-225. *)
Definition cmp_opt_dir : option direction -> option direction -> bool := cmp_opt dir_eqb.

Section Strategy.
  Context {F : Type} {NF : Num F}.
  Local Open Scope num_scope.

  (** [trade_direction_to_f64], trade.rs:18-24. *)
  Definition trade_direction_to_f64 (d : option direction) : F :=
    match d with
    | Some Long => fZ 1
    | Some Short => fZ (-1)
    | None => fZ 0
    end.
  (** [trade_direction_from_f64], trade.rs:26-39. *)
  Definition trade_direction_from_f64 (v : option F) : option direction :=
    match v with
    | Some v =>
        if v ==? fZ 1 then Some Long
        else if v ==? fZ (-1) then Some Short else None
    | None => None
    end.
  (** [Series::to_trade_dir], polars/series.rs:90-105, one cell. *)
  Definition cell_to_trade_dir (v : option F) : option direction :=
    match v with
    | None => None
    | Some x => if fisnan x then None else trade_direction_from_f64 v
    end.

  (** [Trade], trade.rs:42-51. *)
  Record trade := mkTrade {
    t_dir : direction;
    t_closed : bool;
    t_entry_tick : option nat;
    t_entry_price : option F;
    t_exit_tick : option nat;
    t_exit_price : option F;
    t_fill : option F;
    t_pnl : F
  }.
  (** [Trade::new], trade.rs:54-65. *)
  Definition trade_new (d : direction) : trade :=
    mkTrade d false None None None None None (fZ 0).
  (** [trade_pnl], trade.rs:135-138. *)
  Definition trade_pnl (size fill_price price : F) (is_long : bool) : F :=
    let multiplier := if is_long then fZ 1 else fZ (-1) in
    (price - fill_price) * size * multiplier.
  (** [fill_size], trade.rs:140-145. *)
  Definition fill_size (equity price : F) : F :=
    if (equity <=? fZ 0) || (price <=? fZ 0) then fZ 0 else equity / price.
  (** [Trade::pnl], trade.rs:67-74. *)
  Definition trade_cur_pnl (t : trade) (price : F) : res F :=
    f <- unwrap (t_fill t) ;;
    e <- unwrap (t_entry_price t) ;;
    Ok (trade_pnl f e price (dir_eqb (t_dir t) Long)).
  (** [is_at_entry], [is_at_exit], [is_active], trade.rs:76-86. *)
  Definition is_at_entry (t : trade) (tick : nat) : bool :=
    match t_entry_tick t with Some e => (e =? tick)%nat | None => false end.
  (** Trade::is_at_exit, strategy/trade.rs:80-82. *)
  Definition is_at_exit (t : trade) (tick : nat) : bool :=
    match t_exit_tick t with Some e => (e =? tick)%nat | None => false end.
  (** Trade::is_active, strategy/trade.rs:84-86. *)
  Definition is_active (t : trade) : bool := is_some (t_entry_tick t) && negb (t_closed t).

  (** [StrategyConfig], strategy.rs:24-32; default, :34-43. *)
  Record sconfig := mkSConfig {
    sc_on_close : bool; sc_continuous : bool; sc_capital : F; sc_with_equity : bool }.
  (** StrategyConfig::default, strategy/strategy.rs:35-42. *)
  Definition sconfig_default : sconfig := mkSConfig false true (fZ 1000) false.

  (** [StrategyMetrics], strategy.rs:46-66. *)
  Record smetrics := mkSMetrics {
    sm_equity : F;
    sm_net : F;
    sm_open : F;
    sm_gross_profit : F;
    sm_gross_loss : F;
    sm_closed : nat;
    sm_winning : nat;
    sm_losing : nat;
    sm_long_net : F;
    sm_short_net : F
  }.
  (** [StrategyMetrics::default], strategy.rs:69-82. *)
  Definition smetrics_default (capital : F) : smetrics :=
    mkSMetrics capital (fZ 0) (fZ 0) (fZ 0) (fZ 0) 0 0 0 (fZ 0) (fZ 0).

  (** [Strategy], strategy.rs:86-93; the two events carry a copy of the
      trade, strategy.rs:10-21. *)
  Record strategy := mkStrategy {
    s_config : sconfig;
    s_trades : list trade;              (* oldest first *)
    s_unfilled : option direction;
    s_on_entry : option trade;
    s_on_exit : option trade;
    s_metrics : smetrics
  }.
  (** [Strategy::new], strategy.rs:96-108. *)
  Definition strategy_new (cfg : sconfig) : strategy :=
    mkStrategy cfg [] None None None (smetrics_default (sc_capital cfg)).

  (** [self.trades.last_mut()]: the list without its last element, and that
      element. *)
  (** Auxiliary: `trades.last_mut()`, strategy/strategy.rs:112-216. *)
  Definition split_last {A} (l : list A) : option (list A * A) :=
    match rev l with [] => None | x :: t => Some (rev t, x) end.

  (** The metrics update when a trade closes, strategy.rs:158-175. *)
  Definition metrics_close (m : smetrics) (d : direction) (pnl : F) : smetrics :=
    let win := fgtb pnl (fZ 0) in
    let lose := negb win && (pnl <? fZ 0) in
    mkSMetrics (sm_equity m)
      (sm_net m + pnl)
      (fZ 0)
      (if win then sm_gross_profit m + pnl else sm_gross_profit m)
      (if lose then sm_gross_loss m + fabs pnl else sm_gross_loss m)
      (sm_closed m + 1)
      (if win then sm_winning m + 1 else sm_winning m)%nat
      (if lose then sm_losing m + 1 else sm_losing m)%nat
      (if dir_eqb d Long then sm_long_net m + pnl else sm_long_net m)
      (if dir_eqb d Long then sm_short_net m else sm_short_net m + pnl).

  (** assignment to metrics.open_profit, strategy/strategy.rs:112-216. *)
  Definition metrics_set_open (m : smetrics) (o : F) : smetrics :=
    mkSMetrics (sm_equity m) (sm_net m) o (sm_gross_profit m) (sm_gross_loss m)
      (sm_closed m) (sm_winning m) (sm_losing m) (sm_long_net m) (sm_short_net m).
  (** assignment to metrics.equity, strategy/strategy.rs:112-216. *)
  Definition metrics_set_equity (m : smetrics) (e : F) : smetrics :=
    mkSMetrics e (sm_net m) (sm_open m) (sm_gross_profit m) (sm_gross_loss m)
      (sm_closed m) (sm_winning m) (sm_losing m) (sm_long_net m) (sm_short_net m).

  (** Filling the pending order, strategy.rs:124-202.  Returns the trades, the
      metrics and the two events. *)
  Definition strategy_fill (cfg : sconfig) (trades : list trade) (m : smetrics)
      (tick : nat) (price : option F) (d : direction)
      : res (list trade * smetrics * option trade * option trade) :=
    '(trades, m, on_exit, create) <-
      match split_last trades with
      | Some (older, last) =>
          let same := dir_eqb (t_dir last) d in
          let close_trade := negb same && negb (t_closed last) in
          let create :=
            if sc_continuous cfg then negb same && close_trade
            else t_closed last && (same || (negb same && negb close_trade)) in
          if close_trade then
            px <- unwrap price ;;
            let last := mkTrade (t_dir last) true (t_entry_tick last) (t_entry_price last)
                          (Some tick) price (t_fill last) (t_pnl last) in
            pnl <- trade_cur_pnl last px ;;
            let last := mkTrade (t_dir last) true (t_entry_tick last) (t_entry_price last)
                          (Some tick) price (t_fill last) pnl in
            Ok (older ++ [last], metrics_close m (t_dir last) pnl, Some last, create)
          else Ok (trades, m, None, create)
      | None => Ok (trades, m, None, true)
      end ;;
    if create then
      fill <- (if sc_with_equity cfg then
                 px <- unwrap price ;;
                 Ok (fill_size (sc_capital cfg + sm_net m + sm_open m) px)
               else Ok (fZ 1)) ;;
      let t := mkTrade d false (Some tick) price None None (Some fill) (fZ 0) in
      Ok (trades ++ [t], m, Some t, on_exit)
    else Ok (trades, m, None, on_exit).

  (** [Strategy::next], strategy.rs:111-217. *)
  Definition strategy_step (c : ctx F) (s : strategy) (dir : option direction)
      : res (strategy * unit) :=
    let cfg := s_config s in
    let tick := c_index c in
    open <- bar_open c ;;
    close <- bar_close c ;;
    let unfilled := if sc_on_close cfg then dir else s_unfilled s in
    '(trades, m, on_entry, on_exit, unfilled) <-
      match unfilled with
      | Some d =>
          let price := if sc_on_close cfg then close else open in
          '(trades, m, en, ex) <- strategy_fill cfg (s_trades s) (s_metrics s) tick price d ;;
          Ok (trades, m, en, ex, None)
      | None => Ok (s_trades s, s_metrics s, None, None, None)
      end ;;
    let unfilled := if sc_on_close cfg then unfilled else dir in
    m <- match split_last trades with
         | Some (_, last) =>
             if t_closed last then Ok m
             else
               px <- unwrap close ;;
               p <- trade_cur_pnl last px ;;
               Ok (metrics_set_open m p)
         | None => Ok m
         end ;;
    let m := metrics_set_equity m (sc_capital cfg + sm_net m + sm_open m) in
    Ok (mkStrategy cfg trades unfilled on_entry on_exit m, tt).
End Strategy.
Arguments trade : clear implicits.
Arguments sconfig : clear implicits.
Arguments smetrics : clear implicits.
Arguments strategy : clear implicits.
