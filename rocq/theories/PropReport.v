(** * PropReport: C95 (colours of the reports), C96 (markers of a trade). *)
From Verif Require Export MReport PropMetrics2.
From Verif Require Import Inst.

(** ** C95 *)
Section C95.
  Context {F : Type} {NF : Num F} {OF : OrdNum F}.
  Local Open Scope num_scope.
  (** Green above [hi], red below [lo], otherwise (also NaN) neutral. *)
  Definition banded (hi lo x : F) (t : theme) : Prop :=
    (t = Green <-> (hi <? x) = true) /\ (t = Red <-> (x <? lo) = true /\ (hi <? x) = false).
  Lemma above_banded hi lo x : banded hi lo x (theme_of (above hi lo x)).
  Proof.
    unfold banded, above, fgtb. destruct (hi <? x), (x <? lo); cbn; intuition discriminate.
  Qed.
  (** The coloured rows of the Cobra table. *)
  Theorem C95_cobra (b : cobra F) : exists t1 t2 t3 t4 t5 t6 t7,
    cobra_print b = [t1; t2; t3; t4; t5; t6; t7; Neutral; Neutral] /\
    banded (lit (-25) 100) (lit (-40) 100) (cb_eq_max_dd b) t1 /\
    banded (fZ 3) (fZ 2) (cb_sortino b) t3 /\
    banded (lit 3 2) (fZ 1) (cb_sharpe b) t4 /\
    banded (fZ 4) (fZ 2) (cb_profit_factor b) t5 /\
    banded (lit 50 100) (lit 35 100) (cb_profitable b) t6 /\
    (t7 = Green <-> (20 <= cb_trades b <= 80)%nat) /\ (t7 = Red <-> (cb_trades b < 15 \/ 80 < cb_trades b)%nat).
  Proof.
    do 7 eexists. split; [reflexivity|]. repeat (split; [apply above_banded|]).
    unfold cobra_trades_theme.
    destruct (Nat.leb_spec 20 (cb_trades b)), (Nat.leb_spec (cb_trades b) 80), (Nat.ltb_spec (cb_trades b) 15), (Nat.ltb_spec 80 (cb_trades b));
      cbn; split; split; intros; try discriminate; try reflexivity; lia.
  Qed.
  (** The cells of the TradingView overview, except the drawdown. *)
  Theorem C95_tradingview (d : tvdata F) : exists t1 t3 t4 t5,
    tv_print_overview d = [t1; Neutral; t3; t4; t5; Neutral] /\
    banded (fZ 0) (fZ 0) (tv_net_profit d) t1 /\
    banded (lit 1 2) (lit 1 2) (tv_percent_profitable d) t3 /\
    banded (fZ 1) (fZ 1) (tv_profit_factor d) t4.
  Proof. do 4 eexists. split; [reflexivity|]. split; [apply above_banded|]. split; apply above_banded. Qed.
  (** The drawdown colour depends on the amount of money lost, not on the
      percentage printed beside it: anything above 0.2 currency units is red. *)
  Theorem C95_drawdown_partial (d : tvdata F) :
    let t := nth 4 (tv_print_overview d) Neutral in
    (t = Green <-> (tv_max_drawdown d <? lit 2 10) = true) /\
    (t = Red <-> (lit 2 10 <? tv_max_drawdown d) = true).
  Proof.
    cbn zeta. unfold tv_print_overview. cbn [map nth]. unfold fgtb.
    destruct (tv_max_drawdown d <? lit 2 10) eqn:A, (lit 2 10 <? tv_max_drawdown d) eqn:B; cbn; try (split; split; intros; congruence || reflexivity).
    exfalso. apply lt_asym in A. congruence.
  Qed.
End C95.
(** The intra-trade row of the Cobra table is green whatever happened: the
    figure is a positive fraction, the bands are those of a negative one. *)
Lemma intra_green {F} {NF : Num F} {OF : OrdNum F} (cfg : sconfig F) est start c sigs os s b :
  fltb (lit (-25) 100) (fZ 0 : F) = true ->
  observed cobra_step cfg (cobra_new (strategy_new cfg) est start) c sigs os -> newest os = Some (s, b) ->
  nth 1 (cobra_print b) Neutral = Green.
Proof.
  intros L O N. pose proof (C90_nonneg _ _ _ _ _ _ _ _ O N) as P. cbn [cobra_print map nth].
  unfold cobra_dd_theme. apply above_banded. eapply lt_le_trans; eassumption.
Qed.
Theorem C95_intra_refuted log10 (cfg : sconfig f64) est start c sigs os s b : let _ := IEEE log10 in
  observed cobra_step cfg (cobra_new (strategy_new cfg) est start) c sigs os -> newest os = Some (s, b) ->
  nth 1 (cobra_print b) Neutral = Green.
Proof.
  intros NF. apply (@intra_green f64 NF (IEEEOrd log10)). vm_compute. reflexivity.
Qed.
(** Even when a trade lost half its entry price on the way: bought at 100,
    low 50, sold at 110. *)
Definition ctx95 : ctx f64 :=
  let d := mkProvider (qs [100; 100; 110]%Z) (qs [100; 110; 110]%Z) (qs [100; 50; 110]%Z) (qs [100; 110; 110]%Z) (qs [1; 1; 1]%Z) [None; None; None] 0 2 in
  mkCtx d 0 2 3 0 true.
Example C95_intra_case : match run (metered cobra_step) ctx95
    (strategy_new (cfg_of true false false), cobra_new (strategy_new (cfg_of true false false)) false None) [Some Long; None; Some Short] with
  | Ok os => match newest os with Some (_, b) => Some (feqb (cb_intra_dd b) (lit 1 2), nth 1 (cobra_print b) Neutral) | None => None end
  | Panic => None end = Some (true, Green).
Proof. vm_compute. reflexivity. Qed.
(** A drawdown of 1 on a capital of 1000 (0.1 %) is red, one of 0.1 on a
    capital of 0.2 (50 %) is green. *)
Definition ctx95b (hi : f64) : ctx f64 :=
  let p := [Some (fZ 2); Some (fZ 2); Some hi] in
  mkCtx (mkProvider p p p p p [None; None; None] 0 2) 0 2 3 0 true.
Definition dd95 (k hi : f64) : option (theme * bool) :=
  let cfg := mkSConfig true false k false in
  match run (metered tv_step) (ctx95b hi) (strategy_new cfg, tv_new (strategy_new cfg) (fZ 0)) [Some Long; None; None] with
  | Ok os => match newest os with
             | Some (_, t) => Some (nth 4 (tv_print_overview (tv_data t)) Neutral, fltb (tv_max_drawdown_percent (tv_data t)) (lit 2 10))
             | None => None end
  | Panic => None end.
Theorem C95_drawdown_refuted : dd95 (fZ 1000) (fZ 1) = Some (Red, true) /\ dd95 (lit 2 10) (lit 19 10) = Some (Green, false).
Proof. split; vm_compute; reflexivity. Qed.

(** ** C96 *)
Section C96.
  Context {F : Type} {NF : Num F}.
  (** For a trade of a strategy at any bar: no panic; the label is that of an
      open trade exactly while it is open, of an exit exactly at its exit bar. *)
  Theorem C96_label (cfg : sconfig F) c sigs s t tick : after cfg c sigs s -> In t (s_trades s) ->
    exists l, to_colored_string t tick = Ok l /\
      (l = LOpen (t_dir t) <-> t_closed t = false) /\
      (l = LExit (t_dir t) <-> t_exit_tick t = Some tick) /\
      (l = LNone <-> exists x, t_exit_tick t = Some x /\ x <> tick).
  Proof.
    intros A I. apply In_nth_error in I. destruct I as [i I]. destruct (C28_trades _ _ _ _ A _ _ I) as (et & ep & size & T1 & T2 & T3 & T4 & T5 & T6).
    unfold to_colored_string. destruct (t_closed t).
    - destruct (T5 eq_refl) as (xt & xp & X & _). rewrite X. cbn [negb unwrap rbind]. eexists. split; [reflexivity|].
      destruct (Nat.eqb_spec tick xt) as [->|N].
      + split; [split; discriminate|]. split; [split; reflexivity|]. split; [discriminate|]. intros (x & E & NE). congruence.
      + split; [split; discriminate|]. split; [split; [discriminate|congruence]|]. split; [intros _; exists xt; auto|reflexivity].
    - destruct (T6 eq_refl) as (X & _ & _). rewrite X. cbn [negb]. eexists. split; [reflexivity|].
      split; [split; reflexivity|]. split; [split; discriminate|]. split; [discriminate|]. intros (x & E & _). discriminate.
  Qed.
  (** The marker: a triangle in the trade's direction at the entry bar while
      the trade is open, one against it at the exit bar, otherwise a dash whose
      colour says open long / open short / closed. *)
  Definition with_dir (t : trade F) (l s : mark) : mark := match t_dir t with Long => l | Short => s end.
  Theorem C96_marker (cfg : sconfig F) c sigs s t tick : after cfg c sigs s -> In t (s_trades s) ->
    (t_closed t = false -> t_entry_tick t = Some tick -> get_triangle t tick = with_dir t UpGreen DownRed) /\
    (t_closed t = false -> t_entry_tick t <> Some tick -> get_triangle t tick = with_dir t DashGreen DashRed) /\
    (t_exit_tick t = Some tick -> get_triangle t tick = with_dir t DownRed UpGreen) /\
    (t_closed t = true -> t_exit_tick t <> Some tick -> get_triangle t tick = DashBlack).
  Proof.
    intros A I. apply In_nth_error in I. destruct I as [i I]. destruct (C28_trades _ _ _ _ A _ _ I) as (et & ep & size & T1 & T2 & T3 & T4 & T5 & T6).
    unfold get_triangle, is_at_entry, with_dir. rewrite T1. destruct (t_closed t).
    - destruct (T5 eq_refl) as (xt & xp & X & _). rewrite X. cbn [negb andb].
      split; [discriminate|]. split; [discriminate|]. split.
      + intros E; injection E as ->. rewrite Nat.eqb_refl. reflexivity.
      + intros _ N. destruct (Nat.eqb_spec tick xt); [congruence|]. reflexivity.
    - destruct (T6 eq_refl) as (X & _ & _). rewrite X. cbn [negb andb].
      split; [intros _ E; injection E as ->; rewrite Nat.eqb_refl; reflexivity|].
      split; [intros _ N; destruct (Nat.eqb_spec et tick); [congruence|reflexivity]|]. split; discriminate.
  Qed.
End C96.
Example C96_ex : match run_st strategy_step ctx6 (strategy_new (cfg_of false true false)) sig6 with
  | Ok (s, _) => Some (map (fun t => map (get_triangle t) (seq 0 6)) (s_trades s), map (fun t => to_colored_string t 5) (s_trades s))
  | Panic => None end =
  Some ([[DashBlack; DashBlack; DashBlack; DownRed; DashBlack; DashBlack]; [DashBlack; DashBlack; DashBlack; DashBlack; DashBlack; UpGreen];
         [DashGreen; DashGreen; DashGreen; DashGreen; DashGreen; UpGreen]],
        [Ok LNone; Ok (LExit Short); Ok (LOpen Long)]).
Proof. vm_compute. reflexivity. Qed.
