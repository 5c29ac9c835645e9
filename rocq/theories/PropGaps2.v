(** * PropGaps2: further theorems for C05, C30 and C34. *)
From Coq Require Import Reals Lra.
From Verif Require Export PropGaps PropStrategy PropMetrics.
From Verif Require Import PCommon Exact Inst MReport.
Local Open Scope nat_scope.

(** ** C05: the accessors of a window of optional values. *)
(** A value that was not pushed, or was pushed as missing, is missing. *)
Definition present_or_none {A} (o : option (option A)) : option A := match o with Some (Some x) => Some x | _ => None end.
Theorem C05_unwrapped {A : Type} (n : nat) (xs : list (option A)) : 1 <= n ->
  let w := fold_left wc_push xs (wc_new n) in
  wc_first_unwrapped w = Ok (if n <=? length xs then present_or_none (ago (n - 1) xs) else None) /\
  wc_last_unwrapped w = present_or_none (newest xs) /\
  (forall i, wc_get_unwrapped w i = if i <? length xs then Ok (present_or_none (ago i xs)) else Panic).
Proof.
  intros L w. destruct (C05_window_cache n xs L) as (_ & _ & F & N & G & _). fold w in F, N, G.
  split; [|split].
  - unfold wc_first_unwrapped. rewrite F. cbn. destruct (n <=? length xs); [|reflexivity].
    destruct (ago (n - 1) xs) as [[a|]|]; reflexivity.
  - unfold wc_last_unwrapped. rewrite N. destruct (newest xs) as [[a|]|]; reflexivity.
  - intros i. unfold wc_get_unwrapped. rewrite G. destruct (i <? length xs); [|reflexivity].
    destruct (ago i xs) as [[a|]|]; reflexivity.
Qed.
Example C05_unwrapped_ex : let w := fold_left wc_push [Some 1; None; Some 3; Some 4] (wc_new 3) in
  wc_first_unwrapped w = Ok None /\ wc_last_unwrapped w = Some 4 /\ wc_get_unwrapped w 1 = Ok (Some 3) /\
  wc_get_unwrapped w 2 = Ok None /\ wc_get_unwrapped w 3 = Ok (Some 1) /\ wc_get_unwrapped w 4 = Panic.
Proof. repeat split. Qed.

(** ** C30: the same identities in percent of the capital. *)
Section C30p.
  Local Open Scope R_scope.
  Theorem C30_percentages (cfg : sconfig xr) k c sigs s : sc_capital cfg = Fin k -> k <> 0 -> real_prices c -> after cfg c sigs s ->
    let m := s_metrics s in
    exists gp gl ln sn, gross_profit_percent (sm_gross_profit m) (Fin k) = Fin gp /\ gross_loss_percent (sm_gross_loss m) (Fin k) = Fin gl /\
      long_net_profit_percent (sm_long_net m) (Fin k) = Fin ln /\ short_net_profit_percent (sm_short_net m) (Fin k) = Fin sn /\
      net_profit_percent (sm_net m) (Fin k) = Fin (gp - gl) /\ net_profit_percent (sm_net m) (Fin k) = Fin (ln + sn) /\
      sm_net m = Fin ((gp - gl) * k) /\ sm_gross_profit m = Fin (gp * k) /\ sm_long_net m = Fin (ln * k).
  Proof.
    intros K NZ RP A. assert (FK : finite (sc_capital cfg)) by (exists k; exact K).
    destruct (C30_exact cfg c sigs s FK RP A) as (gp & gl & ln & sn & E1 & E2 & E3 & E4 & E5 & E6 & _ & _).
    cbn zeta in *. exists (gp / k), (gl / k), (ln / k), (sn / k).
    unfold gross_profit_percent, gross_loss_percent, long_net_profit_percent, short_net_profit_percent, net_profit_percent.
    rewrite E1, E2, E3, E4. rewrite !fin_div by exact NZ.
    do 4 (split; [reflexivity|]). split; [rewrite E5, fin_div by exact NZ; f_equal; field; exact NZ|].
    split; [rewrite E6, fin_div by exact NZ; f_equal; field; exact NZ|].
    split; [rewrite E5; f_equal; field; exact NZ|]. split; f_equal; field; exact NZ.
  Qed.
End C30p.

(** ** C34: a trade that was only created. *)
Section C34n.
  Context {F : Type} {NF : Num F}.
  (** It has no result: asking for one panics; it is neither active nor entered
      nor left at any tick, and it is displayed with its direction. *)
  Theorem C34_new_trade (d : direction) (tick : nat) (price : F) :
    let t := trade_new d in
    trade_cur_pnl t price = Panic /\ is_active t = false /\ is_at_entry t tick = false /\ is_at_exit t tick = false /\
    t_pnl t = fZ 0 /\ t_dir t = d /\ t_closed t = false /\
    to_colored_string t tick = to_colored_string (mkTrade d false (Some tick) (Some price) None None (Some price) (fZ 0)) tick.
  Proof. destruct d; repeat split. Qed.
End C34n.
Print Assumptions C05_unwrapped.
Print Assumptions C30_percentages.
Print Assumptions C34_new_trade.
