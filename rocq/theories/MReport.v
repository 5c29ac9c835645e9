(** * MReport: the colours and markers of the reports.
    Models the decisions of [CobraMetricsData::print],
    [TradingViewMetricsData::print_overview] and the two string renderings of
    [Trade].  The text layout itself (prettytable, colored, number formatting)
    is not modelled. *)
From Verif Require Export MMetrics.

(** The [theme] argument of [value_cell], cobra_metrics.rs:58-70,
    tradingview_metrics.rs:89-101: 1 green, -1 red, anything else neutral. *)
Inductive theme := Green | Red | Neutral.
(** Auxiliary: the three console colours used by strategy/metrics/cobra_metrics.rs:47-169. *)
Definition theme_of (z : Z) : theme := (if z =? 1 then Green else if z =? -1 then Red else Neutral)%Z.

Section Report.
  Context {F : Type} {NF : Num F}.
  Local Open Scope num_scope.
  (** [match x { x if x > hi => 1, x if x < lo => -1, _ => 0 }]. *)
  (** the repeated `if x > hi .. else if x < lo ..` of strategy/metrics/cobra_metrics.rs:47-169 and tradingview_metrics.rs:81-150. *)
  Definition above (hi lo x : F) : Z := if fgtb x hi then 1%Z else if x <? lo then (-1)%Z else 0%Z.
  (** cobra_metrics.rs:78-82 (equity curve), :90-94 (intra-trade). *)
  Definition cobra_dd_theme (x : F) : Z := above (lit (-25) 100) (lit (-40) 100) x.
  (** :102-106. *)
  Definition cobra_sortino_theme (x : F) : Z := above (fZ 3) (fZ 2) x.
  (** :114-118. *)
  Definition cobra_sharpe_theme (x : F) : Z := above (lit 3 2) (fZ 1) x.
  (** :126-130. *)
  Definition cobra_pf_theme (x : F) : Z := above (fZ 4) (fZ 2) x.
  (** :138-142. *)
  Definition cobra_profitable_theme (x : F) : Z := above (lit 50 100) (lit 35 100) x.
  (** :150-154. *)
  Definition cobra_trades_theme (n : nat) : Z :=
    if ((20 <=? n) && (n <=? 80))%nat then 1%Z else if ((n <? 15) || (80 <? n))%nat then (-1)%Z else 0%Z.
  (** The coloured rows of [print], cobra_metrics.rs:74-165, top to bottom. *)
  Definition cobra_print (b : cobra F) : list theme :=
    map theme_of
      [cobra_dd_theme (cb_eq_max_dd b); cobra_dd_theme (cb_intra_dd b); cobra_sortino_theme (cb_sortino b);
       cobra_sharpe_theme (cb_sharpe b); cobra_pf_theme (cb_profit_factor b); cobra_profitable_theme (cb_profitable b);
       cobra_trades_theme (cb_trades b); 0%Z; 0%Z].
  (** The second row of [print_overview], tradingview_metrics.rs:112-148. *)
  Definition tv_print_overview (d : tvdata F) : list theme :=
    map theme_of
      [above (fZ 0) (fZ 0) (tv_net_profit d); 0%Z; above (lit 1 2) (lit 1 2) (tv_percent_profitable d);
       above (fZ 1) (fZ 1) (tv_profit_factor d);
       (if tv_max_drawdown d <? lit 2 10 then 1%Z else if fgtb (tv_max_drawdown d) (lit 2 10) then (-1)%Z else 0%Z); 0%Z].

  (** [Trade::to_colored_string], trade.rs:88-103. *)
  Inductive label := LOpen (d : direction) | LExit (d : direction) | LNone.
  (** Trade::to_colored_string, strategy/trade.rs:88-103. *)
  Definition to_colored_string (t : trade F) (tick : nat) : res label :=
    if negb (t_closed t) then Ok (LOpen (t_dir t))
    else x <- unwrap (t_exit_tick t) ;; Ok (if (tick =? x)%nat then LExit (t_dir t) else LNone).
  (** [Trade::get_triangle_colored_string], trade.rs:105-132: a green triangle
      up, a red triangle down, or a dash (green, red, black). *)
  Inductive mark := UpGreen | DownRed | DashGreen | DashRed | DashBlack.
  (** Trade::get_triangle_colored_string, strategy/trade.rs:105-132. *)
  Definition get_triangle (t : trade F) (tick : nat) : mark :=
    if negb (t_closed t) && is_at_entry t tick then match t_dir t with Long => UpGreen | Short => DownRed end
    else if match t_exit_tick t with Some x => (tick =? x)%nat | None => false end
         then match t_dir t with Long => DownRed | Short => UpGreen end
    else match t_exit_tick t with
         | None => match t_dir t with Long => DashGreen | Short => DashRed end
         | Some _ => DashBlack
         end.
End Report.
