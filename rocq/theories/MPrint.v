(** * MPrint: the text of the printed reports.
    Models [with_suffix], pace/src/utils/string.rs, the rows of
    [TradingViewMetricsData::print_overview], [print_summary] and
    [CobraMetricsData::print], and Rust's fixed-point formatting of an f64
    ("{:0.2}", "{:0.3}") and of a usize.  Colours are in MReport.v; borders and
    column widths (prettytable) are not modelled. *)
From Flocq Require Import Core IEEE754.BinarySingleNaN.
From Verif Require Import MMetrics IEEE.
From Coq Require Import ZArith List Strings.String Strings.Ascii.
Import ListNotations.
Local Open Scope string_scope.
Local Open Scope Z_scope.

(** one decimal digit, core/fmt (library code behind utils/string.rs:3). *)
Definition digit (d : Z) : string := String (ascii_of_nat (Z.to_nat (48 + d))) EmptyString.
(** exactly [k] digits, core/fmt (library code behind utils/string.rs:3). *)
Fixpoint padded (k : nat) (n : Z) : string :=
  match k with
  | O => ""
  | S k' => padded k' (n / 10) ++ digit (n mod 10)
  end.
(** the digits of [n] without leading zeros, core/fmt (library code behind
    utils/string.rs:3); [fuel] is at least the number of digits. *)
Fixpoint unpadded (fuel : nat) (n : Z) : string :=
  match fuel with
  | O => ""
  | S f => (if n <? 10 then "" else unpadded f (n / 10)) ++ digit (n mod 10)
  end.
(** Display of a usize (prettytable's row!, tradingview_metrics.rs:121, 185-187). *)
Definition show_count (n : nat) : string := unpadded (S (Z.to_nat (Z.log2 (Z.of_nat n)))) (Z.of_nat n).

(** [a / b] rounded to a whole number, ties to even, for [a >= 0], [b > 0]:
    core::num::flt2dec, exact mode. *)
Definition whole (a b : Z) : Z :=
  let q := a / b in
  match 2 * (a mod b) ?= b with
  | Lt => q
  | Gt => q + 1
  | Eq => if Z.even q then q else q + 1
  end.
(** [m * 2^e * 10^k] rounded to a whole number. *)
Definition scaled (k : nat) (m e : Z) : Z :=
  if 0 <=? e then m * 2 ^ e * 10 ^ Z.of_nat k else whole (m * 10 ^ Z.of_nat k) (2 ^ (- e)).
(** the sign Rust prints: also of a negative zero. *)
Definition minus (s : bool) : string := if s then "-" else "".
(** [n / 10^k] in fixed-point notation. *)
Definition decimal (k : nat) (n : Z) : string :=
  let i := n / 10 ^ Z.of_nat k in
  unpadded (S (Z.to_nat (Z.log2 i))) i ++ "." ++ padded k (n mod 10 ^ Z.of_nat k).
(** [format!("{:0.k}", x)], core/fmt/float.rs; used in utils/string.rs:3,
    tradingview_metrics.rs:85, 131, 181-183, cobra_metrics.rs:49. *)
Definition show_fixed (k : nat) (x : f64) : string :=
  match x with
  | B754_nan => "NaN"
  | B754_infinity s => minus s ++ "inf"
  | B754_zero s => minus s ++ decimal k 0
  | B754_finite s m e _ => minus s ++ decimal k (scaled k (Z.pos m) e)
  end.

(** [with_suffix(suffix)(value)], utils/string.rs:1-4. *)
Definition with_suffix (suffix : string) (value : f64) : string := show_fixed 2 value ++ suffix.
(** [f_price], tradingview_metrics.rs:82, 153. *)
Definition f_price (currency : string) (x : f64) : string := with_suffix (" " ++ currency) x.
(** [f_percent], tradingview_metrics.rs:83, 154; cobra_metrics.rs:48. *)
Definition f_percent (x : f64) : string := with_suffix "%" x.
(** [f_raw], tradingview_metrics.rs:85, 156; cobra_metrics.rs:49. *)
Definition f_raw (x : f64) : string := show_fixed 2 x.
(** [x * 100.0]. *)
Definition hundred (x : f64) : f64 := Bmult mode_NE x (f64_ofZ 100).
(** a line break, the "\n" of tradingview_metrics.rs:155. *)
Definition newline : string := String (ascii_of_nat 10) EmptyString.

(** print_overview, tradingview_metrics.rs:81-150: the columns. *)
Definition print_overview (currency : string) (d : tvdata f64) : list (string * string) :=
  let f p r := f_price currency p ++ " " ++ f_percent r in
  [("Net Profit", f (tv_net_profit d) (hundred (tv_net_profit_percent d)));
   ("Total Closed Trades", show_count (tv_closed d));
   ("Percent Profitable", f_percent (hundred (tv_percent_profitable d)));
   ("Profit Factor", show_fixed 3 (tv_profit_factor d));
   ("Max Drawdown", f (tv_max_drawdown d) (hundred (tv_max_drawdown_percent d)));
   ("Avg Trade", f_price currency (tv_avg_trade d))].
(** print_summary, tradingview_metrics.rs:152-201: the rows under the header. *)
Definition print_summary (currency : string) (d : tvdata f64) : list (string * string) :=
  let f p r := f_price currency p ++ newline ++ f_percent r in
  [("Net Profit", f (tv_net_profit d) (hundred (tv_net_profit_percent d)));
   ("Gross Profit", f (tv_gross_profit d) (hundred (tv_gross_profit_percent d)));
   ("Gross Loss", f (tv_gross_loss d) (hundred (tv_gross_loss_percent d)));
   ("Max Run Up", f (tv_max_run_up d) (hundred (tv_max_run_up_percent d)));
   ("Max Drawdown", f (tv_max_drawdown d) (hundred (tv_max_drawdown_percent d)));
   ("Sharpe Ratio", show_fixed 3 (tv_sharpe d));
   ("Sortino Ratio", show_fixed 3 (tv_sortino d));
   ("Profit Factor", show_fixed 3 (tv_profit_factor d));
   ("Open P/L", f_price currency (tv_open_pl d));
   ("Total Closed Trades", show_count (tv_closed d));
   ("Number Winning Trades", show_count (tv_winning d));
   ("Number Losing Trades", show_count (tv_losing d));
   ("Percent Profitable", f_percent (hundred (tv_percent_profitable d)));
   ("Avg Trade", f_price currency (tv_avg_trade d));
   ("Avg Winning Trade", f_price currency (tv_avg_winning d));
   ("Avg Losing Trade", f_price currency (tv_avg_losing d));
   ("Ratio Avg Win / Avg Loss", f_raw (tv_ratio d))].
(** CobraMetricsData::print, cobra_metrics.rs:47-169; the number of trades is
    printed as an f64. *)
Definition cobra_print_text (b : cobra f64) : list (string * string) :=
  [("Equity Curve Max DD", f_percent (hundred (cb_eq_max_dd b)));
   ("Intra-trade Max DD", f_percent (hundred (cb_intra_dd b)));
   ("Sortino", f_raw (cb_sortino b));
   ("Sharpe", f_raw (cb_sharpe b));
   ("Profit Factor", f_raw (cb_profit_factor b));
   ("Profitable %", f_percent (hundred (cb_profitable b)));
   ("Trades", f_raw (f64_ofZ (Z.of_nat (cb_trades b))));
   ("Omega", f_raw (cb_omega b));
   ("Net Profit L/S Ratio", f_raw (cb_ls_ratio b))].
