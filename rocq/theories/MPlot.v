(** * MPlot: the charts of TradingViewMetricsData.
    Models strategy/metrics/tradingview_metrics.rs:203-226: what is handed to
    [textplots::Chart]. How that library draws the points is not modelled. *)
From Flocq Require Import Core IEEE754.BinarySingleNaN.
From Verif Require Export MMetrics IEEE.
Import ListNotations.
Open Scope Z_scope.

(** Rust's [f32]. *)
Definition f32 : Type := binary_float 24 128.
Definition prec_gt_0_24 : Prec_gt_0 24. Proof. reflexivity. Qed.
Definition prec_lt_emax_24 : Prec_lt_emax 24 128. Proof. reflexivity. Qed.
(** [z as f32] for an integer: rounds to nearest, ties to even
    (strategy/metrics/tradingview_metrics.rs:207, 210; the literal 1.0, :207, :210). *)
Definition f32_ofZ (z : Z) : f32 := binary_normalize 24 128 prec_gt_0_24 prec_lt_emax_24 mode_NE z 0 false.
(** [value as f32], strategy/metrics/tradingview_metrics.rs:207. *)
Definition to_f32 (x : f64) : f32 :=
  match x with
  | B754_zero s => B754_zero s
  | B754_infinity s => B754_infinity s
  | B754_nan => B754_nan
  | B754_finite s m e _ => binary_normalize 24 128 prec_gt_0_24 prec_lt_emax_24 mode_NE (cond_Zopp s (Zpos m)) e s
  end.
(** [a + b] on f32, strategy/metrics/tradingview_metrics.rs:207. *)
Definition add32 (a b : f32) : f32 := @Bplus 24 128 prec_gt_0_24 prec_lt_emax_24 mode_NE a b.
(** What [Chart::new(..).lineplot(..)] receives, strategy/metrics/tradingview_metrics.rs:210-212. *)
Record chart := mkChart { ch_width : Z; ch_height : Z; ch_xmin : f32; ch_xmax : f32; ch_points : list (f32 * f32) }.
(** [items.iter().enumerate()] from position [i], strategy/metrics/tradingview_metrics.rs:204-206. *)
Fixpoint enumerate {A} (i : nat) (l : list A) : list (nat * A) :=
  match l with [] => [] | x :: t => (i, x) :: enumerate (S i) t end.
(** [text_plot], strategy/metrics/tradingview_metrics.rs:203-213. *)
Definition text_plot (items : list f64) (size : Z * Z) : chart :=
  mkChart (fst size) (snd size) (f32_ofZ 1) (f32_ofZ (Z.of_nat (length items)))
    (map (fun iv => (add32 (f32_ofZ (Z.of_nat (fst iv))) (f32_ofZ 1), to_f32 (snd iv))) (enumerate 0 items)).
(** [plot_net_equity], strategy/metrics/tradingview_metrics.rs:215-217. *)
Definition plot_net_equity (d : tvdata f64) (size : Z * Z) : chart := text_plot (tv_net_equity_history d) size.
(** [plot_max_drawdown], strategy/metrics/tradingview_metrics.rs:219-221. *)
Definition plot_max_drawdown (d : tvdata f64) (size : Z * Z) : chart := text_plot (tv_max_drawdown_history d) size.
(** [plot_equity], strategy/metrics/tradingview_metrics.rs:223-225. *)
Definition plot_equity (d : tvdata f64) (size : Z * Z) : chart := text_plot (tv_equity_history d) size.
