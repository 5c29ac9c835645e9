(** * PropTick: C112, backtests over whole-tick prices are exact in f64. *)
From Flocq Require Import Core IEEE754.BinarySingleNaN.
From Verif Require Export PropUnits PIeee.
From Verif Require Import Inst MPrint PropPrint PropMetrics.
From Coq Require Import Strings.String List.
Import ListNotations.
Local Open Scope R_scope.

(** ** Reading a state as exact numbers: every f64 replaced by its value. *)
Definition exact_provider (d : provider f64) : provider xr :=
  let col := map (option_map to_xr) in
  mkProvider (col (p_open d)) (col (p_high d)) (col (p_low d)) (col (p_close d)) (col (p_volume d)) (p_time d) (p_start d) (p_end d).
Definition exact_ctx (c : ctx f64) : ctx xr :=
  mkCtx (exact_provider (c_data c)) (c_first c) (c_last c) (c_bars c) (c_index c) (c_running c).
Definition exact_config (cfg : sconfig f64) : sconfig xr :=
  mkSConfig (sc_on_close cfg) (sc_continuous cfg) (to_xr (sc_capital cfg)) (sc_with_equity cfg).
Definition exact_trade (t : trade f64) : trade xr :=
  mkTrade (t_dir t) (t_closed t) (t_entry_tick t) (option_map to_xr (t_entry_price t)) (t_exit_tick t) (option_map to_xr (t_exit_price t))
    (option_map to_xr (t_fill t)) (to_xr (t_pnl t)).
Definition exact_metrics (m : smetrics f64) : smetrics xr :=
  mkSMetrics (to_xr (sm_equity m)) (to_xr (sm_net m)) (to_xr (sm_open m)) (to_xr (sm_gross_profit m)) (to_xr (sm_gross_loss m))
    (sm_closed m) (sm_winning m) (sm_losing m) (to_xr (sm_long_net m)) (to_xr (sm_short_net m)).
Definition exact_strategy (s : strategy f64) : strategy xr :=
  mkStrategy (exact_config (s_config s)) (map exact_trade (s_trades s)) (s_unfilled s)
    (option_map exact_trade (s_on_entry s)) (option_map exact_trade (s_on_exit s)) (exact_metrics (s_metrics s)).
Definition exact_equity (e : equity f64) : equity xr :=
  mkEquity (to_xr (e_equity e)) (to_xr (e_equity_min e)) (to_xr (e_equity_max e)) (to_xr (e_net e)) (to_xr (e_net_min e)) (to_xr (e_net_max e))
    (to_xr (e_bop_min e)) (to_xr (e_bop_max e)) (to_xr (e_bar_min e)) (to_xr (e_bar_max e)).

(** [x] is a whole number of ticks of size [2^e], at most [b] of them. *)
Definition ticks_of (e b : Z) (x : f64) : Prop :=
  is_finite x = true /\ exists z, B2R x = IZR z * bpow radix2 e /\ (Z.abs z <= b)%Z.

(** The amounts, counts and histories of a TradingView report. *)
Definition money112 {F} (d : tvdata F) : list F :=
  [tv_net_profit d; tv_gross_profit d; tv_gross_loss d; tv_max_run_up d; tv_max_drawdown d; tv_open_pl d].
Definition counts112 {F} (d : tvdata F) : list nat := [tv_closed d; tv_winning d; tv_losing d].
Definition histories112 {F} (d : tvdata F) : list (list F) := [tv_net_equity_history d; tv_max_drawdown_history d; tv_equity_history d].
(** Its figures that are one quotient of amounts and counts. *)
Definition quotients112 {F} (d : tvdata F) : list F :=
  [tv_net_profit_percent d; tv_gross_profit_percent d; tv_gross_loss_percent d; tv_max_run_up_percent d; tv_max_drawdown_percent d;
   tv_profit_factor d; tv_percent_profitable d; tv_avg_trade d; tv_avg_winning d; tv_avg_losing d].
(** [x] is the f64 nearest to the exact figure [r] (ties to even); nothing is
    said when the exact figure is not a number (a division by zero). *)
Definition nearest (x : f64) (r : xr) : Prop :=
  forall v, r = Fin v -> is_finite x = true /\ B2R x = round radix2 (SpecFloat.fexp 53 1024) ZnearestE v.
Definition same_report (d : tvdata f64) (d' : tvdata xr) : Prop :=
  money112 d' = map to_xr (money112 d) /\ counts112 d' = counts112 d /\ histories112 d' = map (map to_xr) (histories112 d) /\
  Forall2 nearest (quotients112 d) (quotients112 d').

Lemma metered_cons {F} {NF : Num F} {M} (mstep : ctx F -> M -> strategy F -> res (M * unit)) c s t x xs :
  run (metered mstep) c (s, t) (x :: xs) =
  ('(s1, _) <- strategy_step c s x ;; '(t1, _) <- mstep c t s1 ;; os <- run (metered mstep) (ctx_advance c) (s1, t1) xs ;; Ok ((s1, t1) :: os)).
Proof.
  rewrite run_cons. unfold metered at 1. cbn [fst snd]. destruct (strategy_step c s x) as [[s1 o]|]; [|reflexivity]. cbn [rbind].
  destruct (mstep c t s1) as [[t1 u]|]; reflexivity.
Qed.

Section Tick.
  Variable log10 : f64 -> f64.
  #[local] Instance N112 : Num f64 := IEEE log10.
  Variable e : Z.
  Hypothesis E0 : (-1074 <= e <= 970)%Z.
  Notation tk := (ticks_of e).
  Notation fexp64 := (SpecFloat.fexp 53 1024).
  Notation rnd r := (round radix2 fexp64 (round_mode mode_NE) r).
  #[local] Instance vexp112 : Valid_exp fexp64.
  Proof. apply fexp_correct. reflexivity. Qed.

  Lemma whole_exact z : (Z.abs z < 2 ^ 53)%Z -> rnd (IZR z * bpow radix2 e) = IZR z * bpow radix2 e /\ Rabs (IZR z * bpow radix2 e) < bpow radix2 1024.
  Proof.
    intros H. split.
    - apply round_generic; [auto with typeclass_instances|].
      apply generic_format_FLT with (beta := radix2) (emin := (3 - 1024 - 53)%Z) (prec := 53%Z).
      exists (Float radix2 z e); cbn; [reflexivity|lia|lia].
    - rewrite Rabs_mult, <- abs_IZR, (Rabs_pos_eq (bpow radix2 e)) by apply bpow_ge_0.
      apply Rlt_le_trans with (IZR (2 ^ 53) * bpow radix2 e).
      + apply Rmult_lt_compat_r; [apply bpow_gt_0|apply IZR_lt, H].
      + change (IZR (2 ^ 53)) with (bpow radix2 53). rewrite <- bpow_plus. apply bpow_le. lia.
  Qed.
  Lemma tk_weaken a b x : tk a x -> (a <= b)%Z -> tk b x.
  Proof. intros (F & z & E & B) L. split; [exact F|]. exists z. split; [exact E|lia]. Qed.
  Lemma tk_fin b x : tk b x -> to_xr x = Fin (B2R x).
  Proof. intros (F & _). apply to_xr_finite, F. Qed.
  Lemma tk_0 : tk 0 (fZ 0) /\ to_xr (fZ 0) = fZ 0.
  Proof.
    assert (A : B2R (f64_ofZ 0) = 0 /\ is_finite (f64_ofZ 0) = true) by (apply f64_ofZ_correct; cbn; lia).
    split; [|exact (to_xr_ofZ 0 ltac:(cbn; lia))]. split; [apply A|]. exists 0%Z. split; [|lia]. change (B2R (fZ 0)) with (B2R (f64_ofZ 0)). rewrite (proj1 A). lra.
  Qed.
  Lemma tk_add a b x y : tk a x -> tk b y -> (a + b < 2 ^ 53)%Z -> tk (a + b) (fadd x y) /\ to_xr (fadd x y) = fadd (to_xr x) (to_xr y).
  Proof.
    intros Hx Hy L. pose proof (tk_fin _ _ Hx) as Ex. pose proof (tk_fin _ _ Hy) as Ey.
    destruct Hx as (Fx & z1 & E1 & B1), Hy as (Fy & z2 & E2 & B2).
    pose proof (Bplus_correct 53 1024 _ _ mode_NE x y Fx Fy) as C.
    assert (S : B2R x + B2R y = IZR (z1 + z2) * bpow radix2 e) by (rewrite E1, E2, plus_IZR; ring).
    destruct (whole_exact (z1 + z2)) as [W1 W2]; [lia|].
    rewrite S, W1, Rlt_bool_true in C by exact W2. destruct C as (C & Fz & _).
    split.
    - split; [exact Fz|]. exists (z1 + z2)%Z. split; [exact C|lia].
    - change (fadd x y) with (Bplus mode_NE x y). rewrite (to_xr_finite _ Fz), C, Ex, Ey, fin_add, S. reflexivity.
  Qed.
  Lemma tk_sub a b x y : tk a x -> tk b y -> (a + b < 2 ^ 53)%Z -> tk (a + b) (fsub x y) /\ to_xr (fsub x y) = fsub (to_xr x) (to_xr y).
  Proof.
    intros Hx Hy L. pose proof (tk_fin _ _ Hx) as Ex. pose proof (tk_fin _ _ Hy) as Ey.
    destruct Hx as (Fx & z1 & E1 & B1), Hy as (Fy & z2 & E2 & B2).
    pose proof (Bminus_correct 53 1024 _ _ mode_NE x y Fx Fy) as C.
    assert (S : B2R x - B2R y = IZR (z1 - z2) * bpow radix2 e) by (rewrite E1, E2, minus_IZR; ring).
    destruct (whole_exact (z1 - z2)) as [W1 W2]; [lia|].
    rewrite S, W1, Rlt_bool_true in C by exact W2. destruct C as (C & Fz & _).
    split.
    - split; [exact Fz|]. exists (z1 - z2)%Z. split; [exact C|lia].
    - change (fsub x y) with (Bminus mode_NE x y). rewrite (to_xr_finite _ Fz), C, Ex, Ey, fin_sub, S. reflexivity.
  Qed.
  Lemma tk_abs a x : tk a x -> tk a (fabs x) /\ to_xr (fabs x) = fabs (to_xr x).
  Proof.
    intros Hx. pose proof (tk_fin _ _ Hx) as Ex. destruct Hx as (Fx & z & E & B).
    assert (Fz : is_finite (fabs x) = true) by (change (fabs x) with (Babs x); rewrite is_finite_Babs; exact Fx).
    assert (V : B2R (fabs x) = Rabs (B2R x)) by apply B2R_Babs.
    split; [|rewrite (to_xr_finite _ Fz), V, Ex; reflexivity]. split; [exact Fz|]. exists (Z.abs z). split; [|lia].
    rewrite V, E, Rabs_mult, abs_IZR, (Rabs_pos_eq (bpow radix2 e)) by apply bpow_ge_0. reflexivity.
  Qed.
  (** multiplication by 1 or -1. *)
  Lemma tk_sign a x s : tk a x -> (a < 2 ^ 53)%Z -> s = 1%Z \/ s = (-1)%Z -> tk a (fmul x (fZ s)) /\ to_xr (fmul x (fZ s)) = fmul (to_xr x) (fZ s).
  Proof.
    intros Hx L Hs. pose proof (tk_fin _ _ Hx) as Ex. destruct Hx as (Fx & z & E & B).
    destruct (f64_ofZ_correct s) as [V F]; [destruct Hs as [-> | ->]; cbn; lia|].
    pose proof (Bmult_correct 53 1024 _ _ mode_NE x (f64_ofZ s)) as C. rewrite V in C.
    assert (S : B2R x * IZR s = IZR (z * s) * bpow radix2 e) by (rewrite E, mult_IZR; ring).
    assert (Zb : (Z.abs (z * s) <= a)%Z) by (destruct Hs as [-> | ->]; lia).
    destruct (whole_exact (z * s)) as [W1 W2]; [lia|].
    rewrite S, W1, Rlt_bool_true in C by exact W2. destruct C as (C & Fz & _). rewrite Fx, F in Fz.
    split.
    - split; [exact Fz|]. exists (z * s)%Z. split; [exact C|exact Zb].
    - change (fmul x (fZ s)) with (Bmult mode_NE x (f64_ofZ s)). rewrite (to_xr_finite _ Fz), C, Ex. change (fZ s : xr) with (Fin (IZR s)). rewrite fin_mul, S. reflexivity.
  Qed.
  Lemma max_exact (x y : f64) : to_xr (fmax x y) = fmax (to_xr x) (to_xr y).
  Proof.
    unfold fmax. change (fisnan x) with (is_nan x). change (fisnan y) with (is_nan y). change (fltb x y) with (Bltb x y). rewrite to_xr_lt.
    change (fisnan (to_xr x)) with (xisnan (to_xr x)). change (fisnan (to_xr y)) with (xisnan (to_xr y)). rewrite !to_xr_nan. change (fltb (to_xr x) (to_xr y)) with (xltb (to_xr x) (to_xr y)).
    destruct (is_nan x), (is_nan y), (xltb (to_xr x) (to_xr y)); reflexivity.
  Qed.
  Lemma min_exact (x y : f64) : to_xr (fmin x y) = fmin (to_xr x) (to_xr y).
  Proof.
    unfold fmin. change (fisnan x) with (is_nan x). change (fisnan y) with (is_nan y). change (fltb y x) with (Bltb y x). rewrite to_xr_lt.
    change (fisnan (to_xr x)) with (xisnan (to_xr x)). change (fisnan (to_xr y)) with (xisnan (to_xr y)). rewrite !to_xr_nan. change (fltb (to_xr y) (to_xr x)) with (xltb (to_xr y) (to_xr x)).
    destruct (is_nan x), (is_nan y), (xltb (to_xr y) (to_xr x)); reflexivity.
  Qed.
  Lemma tk_max a x y : tk a x -> tk a y -> tk a (fmax x y).
  Proof. intros X Y. unfold fmax. destruct (fisnan x), (fisnan y), (fltb x y); assumption. Qed.
  Lemma tk_min a x y : tk a x -> tk a y -> tk a (fmin x y).
  Proof. intros X Y. unfold fmin. destruct (fisnan x), (fisnan y), (fltb y x); assumption. Qed.
  Lemma lt_exact (x y : f64) : fltb x y = fltb (to_xr x) (to_xr y). Proof. apply to_xr_lt. Qed.
  Lemma pos_exact (x : f64) : fltb (fZ 0) x = fltb (fZ 0) (to_xr x).
  Proof. rewrite lt_exact. rewrite (proj2 tk_0). reflexivity. Qed.
  Lemma neg_exact (x : f64) : fltb x (fZ 0) = fltb (to_xr x) (fZ 0).
  Proof. rewrite lt_exact. rewrite (proj2 tk_0). reflexivity. Qed.

  (** ** Both computations fail, or both succeed with the same numbers. *)
  Definition sim {A B} (P : A -> Prop) (phi : A -> B) (r : res A) (r' : res B) : Prop :=
    match r with Ok a => P a /\ r' = Ok (phi a) | Panic => r' = Panic end.
  Lemma sim_bind {A B A' B'} (P : A -> Prop) (phi : A -> B) (Q : A' -> Prop) (psi : A' -> B') r r' k k' :
    sim P phi r r' -> (forall a, P a -> sim Q psi (k a) (k' (phi a))) -> sim Q psi (rbind r k) (rbind r' k').
  Proof. intros H K. destruct r as [a|]; cbn in H |- *; [destruct H as [H ->]; apply K, H|rewrite H; reflexivity]. Qed.
  Lemma sim_ok {A B} (P : A -> Prop) (phi : A -> B) a b : P a -> b = phi a -> sim P phi (Ok a) (Ok b).
  Proof. intros H ->. split; [exact H|reflexivity]. Qed.

  (** ** The strategy *)
  (** Prices and capital are at most [A] ticks; [N] bars at most. *)
  Variables (A N : Z).
  Hypothesis A0 : (0 <= A)%Z.
  Hypothesis N0 : (0 <= N)%Z.
  Hypothesis AN : ((4 * N + 6) * A < 2 ^ 53)%Z.

  Definition ok_col (v : list (option f64)) : Prop := Forall (fun o => forall x, o = Some x -> tk A x) v.
  Definition ok_ctx (c : ctx f64) : Prop :=
    ok_col (p_open (c_data c)) /\ ok_col (p_high (c_data c)) /\ ok_col (p_low (c_data c)) /\ ok_col (p_close (c_data c)).
  Definition ok_opt (o : option f64) : Prop := forall x, o = Some x -> tk A x.
  Definition ok_config (cfg : sconfig f64) : Prop := sc_with_equity cfg = false /\ tk A (sc_capital cfg).
  Record ok_trade (t : trade f64) : Prop := {
    okt_fill : t_fill t = Some (fZ 1); okt_entry : ok_opt (t_entry_price t); okt_exit : ok_opt (t_exit_price t); okt_pnl : tk (2 * A) (t_pnl t) }.
  (** after [n] bars *)
  Record ok_metrics (n : Z) (m : smetrics f64) : Prop := {
    okm_net : tk (2 * A * n) (sm_net m); okm_open : tk (2 * A) (sm_open m);
    okm_gp : tk (2 * A * n) (sm_gross_profit m); okm_gl : tk (2 * A * n) (sm_gross_loss m);
    okm_l : tk (2 * A * n) (sm_long_net m); okm_s : tk (2 * A * n) (sm_short_net m);
    okm_counts : Forall (fun k => (Z.of_nat k <= n)%Z) [sm_closed m; sm_winning m; sm_losing m] }.
  Record ok_strategy (n : Z) (s : strategy f64) : Prop := {
    oks_cfg : ok_config (s_config s); oks_trades : Forall ok_trade (s_trades s);
    oks_entry : forall t, s_on_entry s = Some t -> ok_trade t; oks_exit : forall t, s_on_exit s = Some t -> ok_trade t;
    oks_metrics : ok_metrics n (s_metrics s); oks_equity : tk (2 * A * n + 3 * A) (sm_equity (s_metrics s)) }.

  Lemma split_sim ts : Forall ok_trade ts ->
    split_last (map exact_trade ts) = option_map (fun '(o, x) => (map exact_trade o, exact_trade x)) (split_last ts) /\
    match split_last ts with Some (o, x) => Forall ok_trade o /\ ok_trade x /\ ts = o ++ [x] | None => True end.
  Proof.
    intros H. split; [apply split_last_map|]. unfold split_last. destruct (rev ts) as [|x t] eqn:R; [exact I|].
    assert (T : ts = rev t ++ [x]) by (rewrite <- (rev_involutive ts), R; reflexivity).
    rewrite T in H. apply Forall_app in H. destruct H as [H1 H2]. inversion H2; subst. auto.
  Qed.
  Lemma col_sim v i : ok_col v -> sim ok_opt (option_map to_xr) (vget v i) (vget (map (option_map to_xr) v) i).
  Proof.
    intros H. unfold vget. rewrite nth_error_map. destruct (nth_error v i) as [o|] eqn:E; [|reflexivity]. cbn. split; [|reflexivity].
    intros x ->. unfold ok_col in H. rewrite Forall_forall in H. apply (H (Some x)); [apply (nth_error_In _ _ E)|reflexivity].
  Qed.
  Lemma unwrap_sim o : ok_opt o -> sim (tk A) to_xr (unwrap o) (unwrap (option_map to_xr o)).
  Proof. intros H. destruct o as [x|]; [split; [apply H|]; reflexivity|reflexivity]. Qed.
  Lemma pnl_sim t x : ok_trade t -> tk A x -> sim (tk (2 * A)) to_xr (trade_cur_pnl t x) (trade_cur_pnl (exact_trade t) (to_xr x)).
  Proof.
    intros [F En _ _] X. unfold trade_cur_pnl. cbn [exact_trade t_fill t_entry_price t_dir]. rewrite F. cbn [option_map unwrap rbind].
    assert (H1 : to_xr (fZ 1) = fZ 1) by (apply (to_xr_ofZ 1); cbn; lia). rewrite H1.
    apply (sim_bind (tk A) to_xr); [apply unwrap_sim, En|]. intros p P. apply sim_ok; unfold trade_pnl.
    - destruct (tk_sub A A x p X P ltac:(nia)) as [S1 _]. destruct (tk_sign _ _ 1%Z S1 ltac:(nia) (or_introl eq_refl)) as [S2 _].
      destruct (dir_eqb (t_dir t) Long).
      + destruct (tk_sign _ _ 1%Z S2 ltac:(nia) (or_introl eq_refl)) as [S3 _]. replace (2 * A)%Z with (A + A)%Z by lia. exact S3.
      + destruct (tk_sign _ _ (-1)%Z S2 ltac:(nia) (or_intror eq_refl)) as [S3 _]. replace (2 * A)%Z with (A + A)%Z by lia. exact S3.
    - destruct (tk_sub A A x p X P ltac:(nia)) as [S1 E1]. destruct (tk_sign _ _ 1%Z S1 ltac:(nia) (or_introl eq_refl)) as [S2 E2].
      destruct (dir_eqb (t_dir t) Long).
      + destruct (tk_sign _ _ 1%Z S2 ltac:(nia) (or_introl eq_refl)) as [S3 E3]. rewrite E3, E2, E1. reflexivity.
      + destruct (tk_sign _ _ (-1)%Z S2 ltac:(nia) (or_intror eq_refl)) as [S3 E3]. rewrite E3, E2, E1. reflexivity.
  Qed.
  Lemma counts3 (a b c : nat) n : Forall (fun k => (Z.of_nat k <= n)%Z) [a; b; c] <-> (Z.of_nat a <= n /\ Z.of_nat b <= n /\ Z.of_nat c <= n)%Z.
  Proof.
    split.
    - intros H. inversion H as [|? ? H1 H']; subst. inversion H' as [|? ? H2 H'']; subst. inversion H'' as [|? ? H3 _]; subst. auto.
    - intros (H1 & H2 & H3). repeat (apply Forall_cons; [assumption|]). apply Forall_nil.
  Qed.
  Lemma close_sim n m d x : (0 <= n < N)%Z -> ok_metrics n m -> tk (2 * A) x ->
    ok_metrics (n + 1) (metrics_close m d x) /\ metrics_close (exact_metrics m) d (to_xr x) = exact_metrics (metrics_close m d x).
  Proof.
    intros L [H1 H2 H3 H4 H5 H6 H7] X. destruct (tk_abs _ _ X) as [Xa Ea].
    assert (B : (2 * A * n + 2 * A < 2 ^ 53)%Z) by nia. assert (Q : (2 * A * (n + 1) = 2 * A * n + 2 * A)%Z) by lia.
    destruct (tk_add _ _ _ _ H1 X B) as [T1 E1]. destruct (tk_add _ _ _ _ H3 X B) as [T3 E3]. destruct (tk_add _ _ _ _ H4 Xa B) as [T4 E4].
    destruct (tk_add _ _ _ _ H5 X B) as [T5 E5]. destruct (tk_add _ _ _ _ H6 X B) as [T6 E6]. destruct tk_0 as [T0 E00].
    unfold metrics_close, fgtb. split.
    - split; cbn [sm_net sm_open sm_gross_profit sm_gross_loss sm_long_net sm_short_net]; rewrite ?Q.
      + exact T1.
      + apply (tk_weaken 0); [exact T0|lia].
      + destruct (fltb (fZ 0) x); [exact T3|apply (tk_weaken _ _ _ H3); lia].
      + destruct (negb (fltb (fZ 0) x) && fltb x (fZ 0)); [exact T4|apply (tk_weaken _ _ _ H4); lia].
      + destruct (dir_eqb d Long); [exact T5|apply (tk_weaken _ _ _ H5); lia].
      + destruct (dir_eqb d Long); [apply (tk_weaken _ _ _ H6); lia|exact T6].
      + cbn [sm_closed sm_winning sm_losing]. apply counts3 in H7. destruct H7 as (C1 & C2 & C3). apply counts3.
        destruct (fltb (fZ 0) x), (fltb x (fZ 0)); cbn [negb andb]; lia.
    - unfold exact_metrics. cbn [sm_equity sm_net sm_open sm_gross_profit sm_gross_loss sm_closed sm_winning sm_losing sm_long_net sm_short_net].
      rewrite <- pos_exact, <- neg_exact, <- Ea, <- E1, <- E3, <- E4, <- E5, <- E6, E00.
      destruct (fltb (fZ 0) x), (fltb x (fZ 0)), (dir_eqb d Long); reflexivity.
  Qed.
  Lemma ok_metrics_weaken n m : ok_metrics n m -> ok_metrics (n + 1) m.
  Proof. intros [H1 H2 H3 H4 H5 H6 H7]. split; try exact H2; try (eapply tk_weaken; [eassumption|lia]). apply counts3 in H7. apply counts3. lia. Qed.

  Definition filled := (list (trade f64) * smetrics f64 * option (trade f64) * option (trade f64))%type.
  Definition ok_filled (n : Z) (r : filled) : Prop :=
    let '(ts, m, en, ex) := r in Forall ok_trade ts /\ ok_metrics n m /\ (forall t, en = Some t -> ok_trade t) /\ (forall t, ex = Some t -> ok_trade t).
  Definition exact_filled (r : filled) :=
    let '(ts, m, en, ex) := r in (map exact_trade ts, exact_metrics m, option_map exact_trade en, option_map exact_trade ex).
  Lemma fill_sim n cfg ts m tick price d : (0 <= n < N)%Z -> ok_config cfg -> Forall ok_trade ts -> ok_metrics n m -> ok_opt price ->
    sim (ok_filled (n + 1)) exact_filled (strategy_fill cfg ts m tick price d)
      (strategy_fill (exact_config cfg) (map exact_trade ts) (exact_metrics m) tick (option_map to_xr price) d).
  Proof.
    intros L [CE CK] TS OM PR. unfold strategy_fill. destruct (split_sim ts TS) as [SL SP]. rewrite SL.
    cbn [exact_config sc_with_equity sc_continuous sc_capital]. rewrite CE.
    apply (sim_bind (fun r : list (trade f64) * smetrics f64 * option (trade f64) * bool => ok_filled (n + 1) (fst (fst (fst r)), snd (fst (fst r)), None, snd (fst r)))
      (fun r => (map exact_trade (fst (fst (fst r))), exact_metrics (snd (fst (fst r))), option_map exact_trade (snd (fst r)), snd r))).
    - destruct (split_last ts) as [[older last]|]; cbn [option_map].
      2:{ apply sim_ok; [|reflexivity]. cbn. split; [exact TS|]. split; [apply ok_metrics_weaken, OM|]. split; intros t H; discriminate H. }
      destruct SP as (SO & OL & ->).
      change (t_dir (exact_trade last)) with (t_dir last). change (t_closed (exact_trade last)) with (t_closed last).
      set (same := dir_eqb (t_dir last) d). set (cl := negb same && negb (t_closed last)).
      set (cr := if sc_continuous cfg then negb same && cl else t_closed last && (same || negb same && negb cl)).
      destruct cl.
      2:{ apply sim_ok; [|reflexivity]. cbn. split; [exact TS|]. split; [apply ok_metrics_weaken, OM|]. split; intros t H; discriminate H. }
      destruct price as [px|]; [|reflexivity]. cbn [option_map unwrap rbind].
      set (l0 := mkTrade (t_dir last) true (t_entry_tick last) (t_entry_price last) (Some tick) (Some px) (t_fill last) (t_pnl last)).
      match goal with |- context [trade_cur_pnl ?t (to_xr px)] => change t with (exact_trade l0) end.
      assert (O0 : ok_trade l0) by (destruct OL; split; assumption).
      apply (sim_bind (tk (2 * A)) to_xr); [apply pnl_sim; [exact O0|apply PR; reflexivity]|]. intros g G.
      destruct (close_sim n m (t_dir last) g L OM G) as [MC EC].
      set (l1 := mkTrade (t_dir last) true (t_entry_tick last) (t_entry_price last) (Some tick) (Some px) (t_fill last) g).
      assert (O1 : ok_trade l1) by (destruct OL; split; assumption).
      apply sim_ok; cbn [fst snd l0 l1].
      + split; [apply Forall_app; split; [exact SO|constructor; [exact O1|constructor]]|]. split; [exact MC|]. split; [intros t H; discriminate H|].
        intros t H. injection H as <-. exact O1.
      + rewrite map_app. cbn [map option_map]. match goal with |- context [metrics_close (exact_metrics m) ?dd (to_xr g)] => change dd with (t_dir last) end. rewrite EC. reflexivity.
    - intros [[[ts1 m1] ex] cr]. cbn [fst snd]. intros (T1 & M1 & _ & X1). destruct cr.
      + cbn [rbind]. apply sim_ok.
        * assert (ON : ok_trade (mkTrade d false (Some tick) price None None (Some (fZ 1)) (fZ 0))).
          { split; cbn [t_fill t_entry_price t_exit_price t_pnl]; [reflexivity|exact PR|intros x H; discriminate H|]. apply (tk_weaken 0); [apply tk_0|lia]. }
          split; [apply Forall_app; split; [exact T1|constructor; [exact ON|constructor]]|]. split; [exact M1|]. split; [|exact X1].
          intros t H. injection H as <-. exact ON.
        * cbn [exact_filled option_map]. rewrite map_app. cbn [map].
          assert (H1 : to_xr (fZ 1) = fZ 1) by (apply (to_xr_ofZ 1); cbn; lia).
          assert (NT : exact_trade (mkTrade d false (Some tick) price None None (Some (fZ 1)) (fZ 0)) = mkTrade d false (Some tick) (option_map to_xr price) None None (Some (fZ 1)) (fZ 0)).
          { unfold exact_trade. cbn [t_dir t_closed t_entry_tick t_entry_price t_exit_tick t_exit_price t_fill t_pnl option_map]. rewrite H1, (proj2 tk_0). reflexivity. }
          rewrite NT. reflexivity.
      + apply sim_ok; [|reflexivity]. split; [exact T1|]. split; [exact M1|]. split; [intros t H; discriminate H|exact X1].
  Qed.

  Lemma strategy_sim n c s x : (0 <= n < N)%Z -> ok_ctx c -> ok_strategy n s ->
    sim (fun so : strategy f64 * unit => ok_strategy (n + 1) (fst so)) (fun so => (exact_strategy (fst so), snd so))
      (strategy_step c s x) (strategy_step (exact_ctx c) (exact_strategy s) x).
  Proof.
    intros L (CO & CH & CL & CC) OS. destruct OS as [CF OT _ _ OM OE]. unfold strategy_step, bar_open, bar_close.
    cbn [exact_ctx exact_provider c_data c_index p_open p_close].
    apply (sim_bind ok_opt (option_map to_xr)); [apply col_sim, CO|]. intros o O.
    apply (sim_bind ok_opt (option_map to_xr)); [apply col_sim, CC|]. intros cl C.
    cbn [exact_strategy s_config s_trades s_unfilled s_metrics]. cbn [exact_config sc_on_close sc_capital].
    set (uf := if sc_on_close (s_config s) then x else s_unfilled s).
    apply (sim_bind (fun r : filled * option direction => ok_filled (n + 1) (fst r)) (fun r => (exact_filled (fst r), snd r))
      _ _ (match uf with
           | Some d => let price := if sc_on_close (s_config s) then cl else o in
               '(trades, m, en, ex) <- strategy_fill (s_config s) (s_trades s) (s_metrics s) (c_index c) price d ;; Ok (trades, m, en, ex, None)
           | None => Ok (s_trades s, s_metrics s, None, None, None) end)).
    - destruct uf as [d|].
      + cbn zeta. replace (if sc_on_close (s_config s) then option_map to_xr cl else option_map to_xr o) with (option_map to_xr (if sc_on_close (s_config s) then cl else o))
          by (destruct (sc_on_close (s_config s)); reflexivity).
        apply (sim_bind (ok_filled (n + 1)) exact_filled).
        * apply fill_sim; try assumption. destruct (sc_on_close (s_config s)); assumption.
        * intros [[[ts m] en] ex] H. apply sim_ok; [exact H|reflexivity].
      + apply sim_ok; [|reflexivity]. cbn. split; [exact OT|]. split; [apply ok_metrics_weaken, OM|]. split; intros t H; discriminate H.
    - intros [[[[ts m] en] ex] uf1]. cbn [fst snd ok_filled exact_filled]. intros (T1 & M1 & EN1 & EX1).
      destruct (split_sim ts T1) as [SL SP]. rewrite SL.
      apply (sim_bind (ok_metrics (n + 1)) exact_metrics).
      + destruct (split_last ts) as [[older last]|]; cbn [option_map]; [|apply sim_ok; [exact M1|reflexivity]].
        change (t_closed (exact_trade last)) with (t_closed last). destruct (t_closed last); [apply sim_ok; [exact M1|reflexivity]|].
        apply (sim_bind (tk A) to_xr); [apply unwrap_sim, C|]. intros px PX.
        apply (sim_bind (tk (2 * A)) to_xr); [apply pnl_sim; [apply SP|exact PX]|]. intros g G.
        apply sim_ok; [|reflexivity]. destruct M1. split; assumption.
      + intros m1 [H1 H2 H3 H4 H5 H6 H7]. destruct CF as [CE CK].
        destruct (tk_add _ _ _ _ CK H1 ltac:(nia)) as [K1 E1]. destruct (tk_add _ _ _ _ K1 H2 ltac:(nia)) as [K2 E2].
        apply sim_ok.
        * cbn [fst]. split; cbn [s_config s_trades s_on_entry s_on_exit s_metrics metrics_set_equity sm_equity]; try assumption.
          -- split; assumption.
          -- split; assumption.
          -- apply (tk_weaken _ _ _ K2). lia.
        * unfold exact_strategy, metrics_set_equity, exact_metrics.
          cbn [fst snd s_config s_trades s_unfilled s_on_entry s_on_exit s_metrics sm_equity sm_net sm_open sm_gross_profit sm_gross_loss sm_closed sm_winning sm_losing sm_long_net sm_short_net].
          rewrite E2, E1. destruct (sc_on_close (s_config s)); reflexivity.
  Qed.
  Lemma new_sim cfg : ok_config cfg -> ok_strategy 0 (strategy_new cfg) /\ exact_strategy (strategy_new cfg) = strategy_new (exact_config cfg).
  Proof.
    intros [CE CK]. destruct tk_0 as [T0 E00]. split.
    - split; cbn [strategy_new s_config s_trades s_on_entry s_on_exit s_metrics smetrics_default sm_equity]; try (constructor; fail).
      + split; assumption.
      + intros t H; discriminate H.
      + intros t H; discriminate H.
      + split; cbn [sm_net sm_open sm_gross_profit sm_gross_loss sm_long_net sm_short_net smetrics_default]; try (eapply tk_weaken; [exact T0|lia]). apply counts3. cbn. lia.
      + apply (tk_weaken _ _ _ CK). lia.
    - unfold exact_strategy, strategy_new, exact_metrics, smetrics_default.
      cbn [s_config s_trades s_unfilled s_on_entry s_on_exit s_metrics map option_map sm_equity sm_net sm_open sm_gross_profit sm_gross_loss sm_closed sm_winning sm_losing sm_long_net sm_short_net].
      rewrite E00. reflexivity.
  Qed.

  (** ** The equity tracker *)
  Definition ok_equity (n : Z) (q : equity f64) : Prop :=
    Forall (tk (2 * A * n + 3 * A)) [e_equity q; e_equity_min q; e_equity_max q; e_bar_min q; e_bar_max q] /\
    Forall (tk (2 * A * n + A)) [e_net q; e_net_min q; e_net_max q] /\ tk (2 * A) (e_bop_min q) /\ tk (2 * A) (e_bop_max q).
  Lemma equity_sim n c q s : (0 <= n < N)%Z -> ok_ctx c -> ok_strategy (n + 1) s -> ok_equity n q ->
    sim (fun qo : equity f64 * unit => ok_equity (n + 1) (fst qo)) (fun qo => (exact_equity (fst qo), snd qo))
      (equity_step c q s) (equity_step (exact_ctx c) (exact_equity q) (exact_strategy s)).
  Proof.
    intros L (CO & CH & CL & CC) [[CE CK] OT _ OX OM OE] (Q1 & Q2 & Q3 & Q4).
    pose proof (Forall_inv Q1) as _. inversion Q1 as [|? ? _ Q1']; subst. inversion Q1' as [|? ? Hemin Q1'']; subst. inversion Q1'' as [|? ? Hemax _]; subst. clear Q1' Q1''.
    inversion Q2 as [|? ? Hnet Q2']; subst. inversion Q2' as [|? ? Hnmin Q2'']; subst. inversion Q2'' as [|? ? Hnmax _]; subst. clear Q2' Q2''.
    unfold equity_step. cbn [exact_strategy s_on_exit s_trades s_config s_metrics exact_config sc_capital exact_metrics sm_net sm_equity].
    destruct (tk_add _ _ _ _ CK (okm_net _ _ OM) ltac:(nia)) as [KN EN].
    set (nets := match s_on_exit s with
      | Some _ => let net := fadd (sc_capital (s_config s)) (sm_net (s_metrics s)) in (net, fmin (e_net_min q) net, fmax (e_net_max q) net)
      | None => (e_net q, e_net_min q, e_net_max q) end).
    set (nets' := match option_map exact_trade (s_on_exit s) with
      | Some _ => let net := fadd (to_xr (sc_capital (s_config s))) (to_xr (sm_net (s_metrics s))) in
          (net, fmin (e_net_min (exact_equity q)) net, fmax (e_net_max (exact_equity q)) net)
      | None => (e_net (exact_equity q), e_net_min (exact_equity q), e_net_max (exact_equity q)) end).
    assert (NN : (nets' = let '(a, b, d) := nets in (to_xr a, to_xr b, to_xr d)) /\
      (let '(a, b, d) := nets in Forall (tk (2 * A * (n + 1) + A)) [a; b; d])).
    { assert (W : forall x, tk (2 * A * n + A) x -> tk (2 * A * (n + 1) + A) x) by (intros x H; apply (tk_weaken _ _ _ H); lia).
      assert (KN' : tk (2 * A * (n + 1) + A) (fadd (sc_capital (s_config s)) (sm_net (s_metrics s)))) by (apply (tk_weaken _ _ _ KN); lia).
      unfold nets, nets'. destruct (s_on_exit s); cbn [option_map exact_equity e_net e_net_min e_net_max]; cbn zeta.
      - split; [rewrite <- EN, min_exact, max_exact; reflexivity|]. apply Forall_cons; [exact KN'|]. apply Forall_cons; [apply tk_min; auto|]. apply Forall_cons; [apply tk_max; auto|apply Forall_nil].
      - split; [reflexivity|]. repeat (apply Forall_cons; [apply W; assumption|]). apply Forall_nil. }
    destruct NN as [NE NT]. rewrite NE. clear NE nets'. destruct nets as [[net nmin] nmax].
    apply (sim_bind (fun ab : f64 * f64 => tk (2 * A) (fst ab) /\ tk (2 * A) (snd ab)) (fun ab => (to_xr (fst ab), to_xr (snd ab)))).
    - destruct (split_sim _ OT) as [SL SP]. rewrite SL. destruct (split_last (s_trades s)) as [[older last]|]; cbn [option_map]; [|apply sim_ok; [split; assumption|reflexivity]].
      change (t_closed (exact_trade last)) with (t_closed last). destruct (t_closed last); [apply sim_ok; [split; assumption|reflexivity]|].
      unfold bar_low, bar_high. cbn [exact_ctx exact_provider c_data c_index p_low p_high].
      apply (sim_bind ok_opt (option_map to_xr)); [apply col_sim, CL|]. intros lo0 LO0.
      apply (sim_bind (tk A) to_xr); [apply unwrap_sim, LO0|]. intros lo LO.
      apply (sim_bind ok_opt (option_map to_xr)); [apply col_sim, CH|]. intros hi0 HI0.
      apply (sim_bind (tk A) to_xr); [apply unwrap_sim, HI0|]. intros hi HI.
      change (t_dir (exact_trade last)) with (t_dir last).
      destruct (t_dir last).
      + apply (sim_bind (tk (2 * A)) to_xr); [apply pnl_sim; [apply SP|exact LO]|]. intros a Ha.
        apply (sim_bind (tk (2 * A)) to_xr); [apply pnl_sim; [apply SP|exact HI]|]. intros b Hb. apply sim_ok; [split; assumption|reflexivity].
      + apply (sim_bind (tk (2 * A)) to_xr); [apply pnl_sim; [apply SP|exact HI]|]. intros a Ha.
        apply (sim_bind (tk (2 * A)) to_xr); [apply pnl_sim; [apply SP|exact LO]|]. intros b Hb. apply sim_ok; [split; assumption|reflexivity].
    - intros [a b]. cbn [fst snd]. intros [Ha Hb].
      inversion NT as [|? ? Na NT']; subst. inversion NT' as [|? ? Nb NT'']; subst. inversion NT'' as [|? ? Nc _]; subst.
      destruct (tk_add _ _ _ _ Na Ha ltac:(nia)) as [T1 E1]. destruct (tk_add _ _ _ _ Na Hb ltac:(nia)) as [T2 E2].
      assert (W : forall x, tk (2 * A * n + 3 * A) x -> tk (2 * A * (n + 1) + 3 * A) x) by (intros x H; apply (tk_weaken _ _ _ H); lia).
      apply sim_ok.
      + cbn [fst]. split; [|split; [|split]]; cbn [e_equity e_equity_min e_equity_max e_net e_net_min e_net_max e_bop_min e_bop_max e_bar_min e_bar_max].
        * apply Forall_cons; [exact OE|]. apply Forall_cons; [apply tk_min; auto|]. apply Forall_cons; [apply tk_max; auto|].
          apply Forall_cons; [apply (tk_weaken _ _ _ T1); lia|]. apply Forall_cons; [apply (tk_weaken _ _ _ T2); lia|apply Forall_nil].
        * exact NT.
        * exact Ha.
        * exact Hb.
      + unfold exact_equity. cbn [fst snd e_equity e_equity_min e_equity_max e_net e_net_min e_net_max e_bop_min e_bop_max e_bar_min e_bar_max].
        rewrite min_exact, max_exact, E1, E2. reflexivity.
  Qed.

  (** ** The TradingView report *)
  Hypothesis N1 : (N <= 2 ^ 53)%Z.
  Lemma nearest_0 : nearest (fZ 0) (fZ 0).
  Proof.
    intros v H. injection H as <-. assert (Q : B2R (f64_ofZ 0) = 0 /\ is_finite (f64_ofZ 0) = true) by (apply f64_ofZ_correct; cbn; lia).
    split; [apply Q|]. change (B2R (fZ 0)) with (B2R (f64_ofZ 0)). rewrite (proj1 Q). symmetry. apply round_0. auto with typeclass_instances.
  Qed.
  Lemma div_nearest (x y : f64) : is_finite x = true -> is_finite y = true -> (B2R y <> 0 -> Rabs (B2R x / B2R y) <= bpow radix2 1023) ->
    nearest (fdiv x y) (fdiv (to_xr x) (to_xr y)).
  Proof.
    intros Fx Fy B v H. rewrite (to_xr_finite _ Fx), (to_xr_finite _ Fy) in H.
    destruct (Req_EM_T (B2R y) 0) as [Q|Q].
    - rewrite Q, fin_div0 in H. unfold rsgn in H. destruct (Rlt_dec 0 (B2R x)); [discriminate H|]. destruct (Rlt_dec (B2R x) 0); discriminate H.
    - rewrite fin_div in H by exact Q. injection H as <-. pose proof (Bdiv_correct 53 1024 _ _ mode_NE x y Q) as C.
      assert (R0 : Rabs (rnd (B2R x / B2R y)) < bpow radix2 1024).
      { apply Rle_lt_trans with (bpow radix2 1023); [|apply bpow_lt; lia].
        apply abs_round_le_generic; [auto with typeclass_instances|auto with typeclass_instances| |exact (B Q)].
        apply generic_format_bpow. unfold SpecFloat.fexp, SpecFloat.emin. lia. }
      rewrite Rlt_bool_true in C by exact R0. destruct C as (C & Fz & _). rewrite Fx in Fz. split; [exact Fz|exact C].
  Qed.
  Lemma tick_size : 0 < bpow radix2 e /\ bpow radix2 e <= bpow radix2 970.
  Proof. split; [apply bpow_gt_0|apply bpow_le; lia]. Qed.
  (** amount / amount *)
  Lemma ratio_nearest a b x y : tk a x -> tk b y -> (a < 2 ^ 53)%Z -> nearest (fdiv x y) (fdiv (to_xr x) (to_xr y)).
  Proof.
    intros (Fx & z1 & E1 & B1) (Fy & z2 & E2 & B2) L. apply div_nearest; [exact Fx|exact Fy|]. intros NZ.
    pose proof tick_size as [U0 _]. rewrite E1, E2 in *.
    assert (Z2 : IZR z2 <> 0) by (intros Q; apply NZ; rewrite Q; ring).
    replace (IZR z1 * bpow radix2 e / (IZR z2 * bpow radix2 e)) with (IZR z1 / IZR z2) by (field; split; lra).
    unfold Rdiv. rewrite Rabs_mult, Rabs_inv.
    assert (I2 : 1 <= Rabs (IZR z2)). { rewrite <- abs_IZR. apply IZR_le. assert (z2 <> 0%Z) by (intros ->; apply Z2; reflexivity). lia. }
    assert (I1 : Rabs (IZR z1) <= bpow radix2 53). { rewrite <- abs_IZR. change (bpow radix2 53) with (IZR (2 ^ 53)). apply IZR_le. lia. }
    assert (I3 : / Rabs (IZR z2) <= 1). { rewrite <- Rinv_1. apply Rinv_le_contravar; lra. }
    assert (I4 : 0 <= / Rabs (IZR z2)). { apply Rlt_le, Rinv_0_lt_compat. lra. }
    apply Rle_trans with (bpow radix2 53 * 1); [apply Rmult_le_compat; try assumption; apply Rabs_pos|]. rewrite Rmult_1_r. apply bpow_le. lia.
  Qed.
  Lemma count_exact k : (Z.of_nat k <= N)%Z -> let c := @fnat f64 N112 k in is_finite c = true /\ B2R c = INR k /\ to_xr c = fnat k.
  Proof.
    intros H. cbn zeta. destruct (f64_ofZ_correct (Z.of_nat k)) as [V F]; [lia|]. split; [exact F|]. split; [rewrite INR_IZR_INZ; exact V|].
    unfold fnat. change (fZ (Z.of_nat k) : f64) with (f64_ofZ (Z.of_nat k)). apply to_xr_ofZ. lia.
  Qed.
  (** amount / count *)
  Lemma avg_nearest a x k : tk a x -> (a < 2 ^ 53)%Z -> (Z.of_nat k <= N)%Z -> nearest (unwrap_or0 (avg_trade x k)) (unwrap_or0 (avg_trade (to_xr x) k)).
  Proof.
    intros Hx L K. unfold avg_trade. destruct (Nat.eqb_spec k 0) as [|NZ]; [exact nearest_0|]. cbn [unwrap_or0].
    destruct (count_exact k K) as (Fk & Vk & Ek). rewrite <- Ek. apply div_nearest; [apply Hx|exact Fk|]. intros _.
    destruct Hx as (_ & z & E & B). pose proof tick_size as [U0 U1]. rewrite Vk, E.
    assert (K1 : 1 <= INR k) by (apply (le_INR 1); lia).
    unfold Rdiv. rewrite !Rabs_mult, (Rabs_pos_eq (bpow radix2 e)), (Rabs_pos_eq (/ INR k)); [|apply Rlt_le, Rinv_0_lt_compat; lra|lra].
    assert (I1 : Rabs (IZR z) <= bpow radix2 53). { rewrite <- abs_IZR. change (bpow radix2 53) with (IZR (2 ^ 53)). apply IZR_le. lia. }
    assert (I3 : / INR k <= 1). { rewrite <- Rinv_1. apply Rinv_le_contravar; lra. }
    assert (I4 : 0 <= / INR k). { apply Rlt_le, Rinv_0_lt_compat. lra. }
    apply Rle_trans with (bpow radix2 53 * bpow radix2 970 * 1).
    - apply Rmult_le_compat; [apply Rmult_le_pos; [apply Rabs_pos|lra]|exact I4| |exact I3].
      apply Rmult_le_compat; [apply Rabs_pos|lra|exact I1|exact U1].
    - rewrite Rmult_1_r, <- bpow_plus. apply bpow_le. lia.
  Qed.
  (** count / count *)
  Lemma share_nearest j k : (Z.of_nat j <= N)%Z -> (Z.of_nat k <= N)%Z ->
    nearest (unwrap_or0 (percent_profitable j k)) (unwrap_or0 (percent_profitable j k)).
  Proof.
    intros J K. unfold percent_profitable. destruct (Nat.eqb_spec k 0) as [|NZ]; [exact nearest_0|]. cbn [unwrap_or0].
    destruct (count_exact k K) as (Fk & Vk & Ek). destruct (count_exact j J) as (Fj & Vj & Ej). rewrite <- Ek, <- Ej. apply div_nearest; [exact Fj|exact Fk|]. intros _.
    rewrite Vk, Vj. assert (K1 : 1 <= INR k) by (apply (le_INR 1); lia).
    assert (J1 : 0 <= INR j <= bpow radix2 53). { split; [apply pos_INR|]. rewrite INR_IZR_INZ. change (bpow radix2 53) with (IZR (2 ^ 53)). apply IZR_le. lia. }
    assert (I3 : / INR k <= 1). { rewrite <- Rinv_1. apply Rinv_le_contravar; lra. }
    assert (I4 : 0 <= / INR k). { apply Rlt_le, Rinv_0_lt_compat. lra. }
    unfold Rdiv. rewrite Rabs_mult, !Rabs_pos_eq by (first [exact I4|apply J1]).
    apply Rle_trans with (bpow radix2 53 * 1); [apply Rmult_le_compat; try apply J1; assumption|]. rewrite Rmult_1_r. apply bpow_le. lia.
  Qed.
  Lemma factor_nearest a x y : tk a x -> tk a y -> (a < 2 ^ 53)%Z -> nearest (unwrap_or0 (profit_factor x y)) (unwrap_or0 (profit_factor (to_xr x) (to_xr y))).
  Proof.
    intros X Y L. unfold profit_factor. assert (E : feqb y (fZ 0) = feqb (to_xr y) (fZ 0)).
    { change (feqb y (fZ 0)) with (Beqb y (@fZ f64 N112 0)). rewrite to_xr_eq. rewrite (proj2 tk_0). reflexivity. }
    rewrite <- E. destruct (feqb y (fZ 0)); [exact nearest_0|]. apply (ratio_nearest a a); assumption.
  Qed.

  Definition ok_tv (n : Z) (t : tvmetrics f64) (t' : tvmetrics xr) : Prop :=
    ok_equity n (tv_eqm t) /\ tv_eqm t' = exact_equity (tv_eqm t) /\
    tk (4 * A * n + 4 * A) (tv_max_drawdown (tv_data t)) /\ tk (4 * A * n + 4 * A) (tv_max_run_up (tv_data t)) /\
    money112 (tv_data t') = map to_xr (money112 (tv_data t)) /\ counts112 (tv_data t') = counts112 (tv_data t) /\
    histories112 (tv_data t') = map (map to_xr) (histories112 (tv_data t)).
  Lemma tv_sim n c t t' s : (0 <= n < N)%Z -> ok_ctx c -> ok_strategy (n + 1) s -> ok_tv n t t' ->
    match tv_step c t s with
    | Ok (t1, _) => exists t1', tv_step (exact_ctx c) t' (exact_strategy s) = Ok (t1', tt) /\ ok_tv (n + 1) t1 t1' /\
        Forall2 nearest (quotients112 (tv_data t1)) (quotients112 (tv_data t1'))
    | Panic => tv_step (exact_ctx c) t' (exact_strategy s) = Panic
    end.
  Proof.
    intros L OC OS (Q1 & Q2 & Q3 & Q4 & Q5 & Q6 & Q7). unfold tv_step. rewrite Q2.
    pose proof (equity_sim n c (tv_eqm t) s L OC OS Q1) as ES.
    destruct (equity_step c (tv_eqm t) s) as [[q []]|]; cbn [sim] in ES; [|rewrite ES; reflexivity]. destruct ES as [OQ ->]. cbn [rbind fst snd] in OQ |- *.
    destruct (sstdev_next (tv_neg_stdev t) (fabs (fmin (fZ 0) (r_delta (returns_next (tv_returns t) (e_net q)))))) as [ns nsd].
    destruct (sstdev_next (tv_neg_stdev t') (fabs (fmin (fZ 0) (r_delta (returns_next (tv_returns t') (e_net (exact_equity q))))))) as [ns' nsd'].
    eexists. split; [reflexivity|].
    destruct OS as [[CE CK] OT _ OX OM OE].
    pose proof OQ as (QA & QB & _ & _).
    inversion QA as [|? ? _ QA1]; subst. inversion QA1 as [|? ? _ QA2]; subst. inversion QA2 as [|? ? _ QA3]; subst. inversion QA3 as [|? ? Hbmin QA4]; subst. inversion QA4 as [|? ? Hbmax _]; subst.
    inversion QB as [|? ? _ QB1]; subst. inversion QB1 as [|? ? Hnmin QB2]; subst. inversion QB2 as [|? ? Hnmax _]; subst. clear QA1 QA2 QA3 QA4 QB1 QB2.
    unfold money112, counts112, histories112 in Q5, Q6, Q7. cbn [map] in Q5, Q7. injection Q5 as M1 M2 M3 M4 M5 M6. injection Q6 as C1 C2 C3. injection Q7 as H1 H2 H3.
    destruct (tk_sub _ _ _ _ Hnmax Hbmin ltac:(nia)) as [D1 D2]. destruct (tk_sub _ _ _ _ Hbmax Hnmin ltac:(nia)) as [D3 D4].
    set (mdd := fmax (fsub (e_net_max q) (e_bar_min q)) (tv_max_drawdown (tv_data t))).
    set (mru := fmax (fsub (e_bar_max q) (e_net_min q)) (tv_max_run_up (tv_data t))).
    assert (Emdd : fmax (fsub (e_net_max (exact_equity q)) (e_bar_min (exact_equity q))) (tv_max_drawdown (tv_data t')) = to_xr mdd).
    { rewrite M5. unfold mdd. rewrite max_exact, D2. reflexivity. }
    assert (Emru : fmax (fsub (e_bar_max (exact_equity q)) (e_net_min (exact_equity q))) (tv_max_run_up (tv_data t')) = to_xr mru).
    { rewrite M4. unfold mru. rewrite max_exact, D4. reflexivity. }
    assert (Tmdd : tk (4 * A * (n + 1) + 4 * A) mdd).
    { apply tk_max; [apply (tk_weaken _ _ _ D1); lia|apply (tk_weaken _ _ _ Q3); lia]. }
    assert (Tmru : tk (4 * A * (n + 1) + 4 * A) mru).
    { apply tk_max; [apply (tk_weaken _ _ _ D3); lia|apply (tk_weaken _ _ _ Q4); lia]. }
    rewrite Emdd, Emru.
    assert (EX : is_some (s_on_exit (exact_strategy s)) = is_some (s_on_exit s)) by (cbn [exact_strategy s_on_exit]; destruct (s_on_exit s); reflexivity).
    rewrite EX.
    change (e_net (exact_equity q)) with (to_xr (e_net q)). change (e_equity (exact_equity q)) with (to_xr (e_equity q)).
    change (e_bar_max (exact_equity q)) with (to_xr (e_bar_max q)). change (e_net_max (exact_equity q)) with (to_xr (e_net_max q)).
    cbn [exact_strategy s_config s_metrics exact_config sc_capital exact_metrics sm_net sm_open sm_gross_profit sm_gross_loss sm_closed sm_winning sm_losing].
    destruct OM as [O1 O2 O3 O4 _ _ O7]. apply counts3 in O7. destruct O7 as (N1' & N2' & N3').
    split.
    - unfold ok_tv, money112, counts112, histories112. cbn [tv_eqm tv_data tv_net_profit tv_gross_profit tv_gross_loss tv_max_run_up tv_max_drawdown tv_open_pl tv_closed tv_winning tv_losing tv_net_equity_history tv_max_drawdown_history tv_equity_history map].
      split; [exact OQ|]. split; [reflexivity|]. split; [exact Tmdd|]. split; [exact Tmru|]. split; [reflexivity|]. split; [reflexivity|].
      rewrite H1, H2, H3. rewrite !map_app. cbn [map]. destruct (is_some (s_on_exit s)); rewrite ?map_app; reflexivity.
    - unfold quotients112. cbn [tv_data tv_net_profit_percent tv_gross_profit_percent tv_gross_loss_percent tv_max_run_up_percent tv_max_drawdown_percent tv_profit_factor tv_percent_profitable tv_avg_trade tv_avg_winning tv_avg_losing].
      unfold net_profit_percent, gross_profit_percent, gross_loss_percent, max_run_up_percent, max_drawdown_percent.
      assert (B2 : (2 * A * (n + 1) < 2 ^ 53)%Z) by nia. assert (B4 : (4 * A * (n + 1) + 4 * A < 2 ^ 53)%Z) by nia.
      constructor; [exact (ratio_nearest _ _ _ _ O1 CK B2)|]. constructor; [exact (ratio_nearest _ _ _ _ O3 CK B2)|]. constructor; [exact (ratio_nearest _ _ _ _ O4 CK B2)|].
      constructor; [exact (ratio_nearest _ _ _ _ Tmru Hbmax B4)|]. constructor; [exact (ratio_nearest _ _ _ _ Tmdd Hnmax B4)|].
      constructor; [exact (factor_nearest _ _ _ O3 O4 B2)|]. constructor; [apply share_nearest; lia|].
      constructor; [apply (avg_nearest _ _ _ O1 B2); lia|]. constructor; [apply (avg_nearest _ _ _ O3 B2); lia|].
      constructor; [apply (avg_nearest _ _ _ O4 B2); lia|constructor].
  Qed.
  Lemma tv_new_sim cfg rfr rfr' : ok_config cfg -> ok_tv 0 (tv_new (strategy_new cfg) rfr) (tv_new (strategy_new (exact_config cfg)) rfr').
  Proof.
    intros [CE CK]. destruct tk_0 as [T0 E00]. unfold ok_tv, tv_new, money112, counts112, histories112, ok_equity, equity_new, exact_equity, tvdata_default.
    cbn [tv_eqm tv_data s_config strategy_new e_equity e_equity_min e_equity_max e_net e_net_min e_net_max e_bop_min e_bop_max e_bar_min e_bar_max tv_net_profit tv_gross_profit tv_gross_loss tv_max_run_up tv_max_drawdown tv_open_pl tv_closed tv_winning tv_losing tv_net_equity_history tv_max_drawdown_history tv_equity_history map].
    rewrite !E00. split.
    - split; [repeat (apply Forall_cons; [apply (tk_weaken _ _ _ CK); lia|]); apply Forall_nil|].
      split; [repeat (apply Forall_cons; [apply (tk_weaken _ _ _ CK); lia|]); apply Forall_nil|]. split; apply (tk_weaken _ _ _ T0); lia.
    - split; [reflexivity|]. split; [apply (tk_weaken _ _ _ T0); lia|]. split; [apply (tk_weaken _ _ _ T0); lia|]. repeat split.
  Qed.
  Lemma ok_advance c : ok_ctx c -> ok_ctx (ctx_advance c). Proof. intros H. exact H. Qed.
  Lemma tv_run_sim sigs n c s t t' : (0 <= n)%Z -> (n + Z.of_nat (List.length sigs) <= N)%Z -> ok_ctx c -> ok_strategy n s -> ok_tv n t t' ->
    match run (metered tv_step) c (s, t) sigs with
    | Ok os => exists os', run (metered tv_step) (exact_ctx c) (exact_strategy s, t') sigs = Ok os' /\
        Forall2 (fun o o' => fst o' = exact_strategy (fst o) /\ same_report (tv_data (snd o)) (tv_data (snd o'))) os os'
    | Panic => run (metered tv_step) (exact_ctx c) (exact_strategy s, t') sigs = Panic
    end.
  Proof.
    revert n c s t t'. induction sigs as [|x sigs IH]; intros n c s t t' L0 L OC OS OT.
    - cbn. exists []. split; [reflexivity|constructor].
    - cbn [List.length] in L. assert (LN : (0 <= n < N)%Z) by lia. rewrite !metered_cons.
      pose proof (strategy_sim n c s x LN OC OS) as SS. destruct (strategy_step c s x) as [[s1 []]|]; cbn [sim] in SS; [|rewrite SS; reflexivity].
      destruct SS as [OS1 ->]. cbn [rbind fst snd] in OS1 |- *.
      pose proof (tv_sim n c t t' s1 LN OC OS1 OT) as TS. destruct (tv_step c t s1) as [[t1 []]|]; [|rewrite TS; reflexivity].
      destruct TS as (t1' & -> & OT1 & QT1). cbn [rbind].
      specialize (IH (n + 1)%Z (ctx_advance c) s1 t1 t1' ltac:(lia) ltac:(lia) (ok_advance c OC) OS1 OT1).
      change (exact_ctx (ctx_advance c)) with (ctx_advance (exact_ctx c)) in IH.
      destruct (run (metered tv_step) (ctx_advance c) (s1, t1) sigs) as [os|]; cbn [rbind].
      + destruct IH as (os' & -> & FA). cbn [rbind]. eexists. split; [reflexivity|]. constructor; [|exact FA].
        cbn [fst snd]. split; [reflexivity|]. destruct OT1 as (_ & _ & _ & _ & P1 & P2 & P3). repeat split; assumption.
      + rewrite IH. reflexivity.
  Qed.

  Lemma strategy_run_sim sigs n c s : (0 <= n)%Z -> (n + Z.of_nat (List.length sigs) <= N)%Z -> ok_ctx c -> ok_strategy n s ->
    match run_st strategy_step c s sigs with
    | Ok (s1, os) => ok_strategy (n + Z.of_nat (List.length sigs)) s1 /\ run_st strategy_step (exact_ctx c) (exact_strategy s) sigs = Ok (exact_strategy s1, os)
    | Panic => run_st strategy_step (exact_ctx c) (exact_strategy s) sigs = Panic
    end.
  Proof.
    revert n c s. induction sigs as [|x sigs IH]; intros n c s L0 L OC OS.
    - cbn [run_st List.length Z.of_nat]. rewrite Z.add_0_r. split; [exact OS|reflexivity].
    - cbn [List.length] in L |- *. assert (LN : (0 <= n < N)%Z) by lia. cbn [run_st].
      pose proof (strategy_sim n c s x LN OC OS) as SS. destruct (strategy_step c s x) as [[s1 []]|]; cbn [sim] in SS; [|rewrite SS; reflexivity].
      destruct SS as [OS1 ->]. cbn [rbind fst snd] in OS1 |- *.
      specialize (IH (n + 1)%Z (ctx_advance c) s1 ltac:(lia) ltac:(lia) (ok_advance c OC) OS1).
      change (exact_ctx (ctx_advance c)) with (ctx_advance (exact_ctx c)) in IH.
      destruct (run_st strategy_step (ctx_advance c) s1 sigs) as [[s2 os]|]; cbn [rbind].
      + destruct IH as [OS2 ->]. cbn [rbind]. split; [|reflexivity]. replace (n + Z.of_nat (S (List.length sigs)))%Z with (n + 1 + Z.of_nat (List.length sigs))%Z by lia. exact OS2.
      + rewrite IH. reflexivity.
  Qed.
End Tick.

(** ** C112 *)
(** The prices of a market and the capital are whole numbers of ticks of size
    [2^e], at most [A] of them, and [n] bars are few enough: then no amount
    needs more than 53 bits. *)
Record whole_ticks (e A : Z) (n : nat) (cfg : sconfig f64) (c : ctx f64) : Prop := {
  wt_size : (-1074 <= e <= 970)%Z;
  wt_few : ((4 * Z.of_nat n + 6) * A < 2 ^ 53)%Z;
  wt_bars : (Z.of_nat n <= 2 ^ 53)%Z;
  wt_capital : ticks_of e A (sc_capital cfg);
  wt_prices : forall col, In col [p_open (c_data c); p_high (c_data c); p_low (c_data c); p_close (c_data c)] ->
    forall x, In (Some x) col -> ticks_of e A x }.
Lemma whole_ok e A n cfg c : whole_ticks e A n cfg c -> (0 <= A)%Z /\ ok_ctx e A c.
Proof.
  intros [H1 H2 H3 (_ & z & _ & H4) H5]. split; [lia|].
  assert (G : forall col, In col [p_open (c_data c); p_high (c_data c); p_low (c_data c); p_close (c_data c)] -> ok_col e A col).
  { intros col I. apply Forall_forall. intros o Io x ->. exact (H5 col I x Io). }
  repeat split; apply G; cbn; tauto.
Qed.

(** Price moves in the direction of a trade, exactly. *)
Definition gained (d : direction) (entry exit : f64) : R := (if dir_eqb d Long then 1 else -1) * (B2R exit - B2R entry).
Definition moved (t : trade f64) : R :=
  match t_entry_price t, t_exit_price t with
  | Some a, Some b => gained (t_dir t) a b
  | _, _ => 0
  end.
Definition Rplus_all (l : list R) : R := fold_right Rplus 0 l.
Lemma total_fin (l : list R) : total (map Fin l) = Fin (Rplus_all l).
Proof.
  unfold total. assert (G : forall a, fold_left fadd (map Fin l) (Fin a) = Fin (a + Rplus_all l)).
  { induction l as [|x l IH]; intros a; cbn [map fold_left Rplus_all fold_right]; [rewrite Rplus_0_r; reflexivity|].
    rewrite fin_add, IH. unfold Rplus_all. rewrite Rplus_assoc. reflexivity. }
  change (fZ 0 : xr) with (Fin 0). rewrite G, Rplus_0_l. reflexivity.
Qed.

Section C112.
  Variable log10 : f64 -> f64.
  #[local] Instance NF112 : Num f64 := IEEE log10.
(** The report of every bar of an f64 backtest with a fixed size is that of the
    backtest in exact arithmetic: the trades, the amounts, the counts and the
    histories are equal, and each quotient is the f64 nearest to the exact
    quotient.  One backtest panics when the other does. *)
Theorem C112_tradingview e A cfg rfr c sigs : sc_with_equity cfg = false -> whole_ticks e A (List.length sigs) cfg c ->
  (forall os, observed tv_step cfg (tv_new (strategy_new cfg) rfr) c sigs os ->
    exists os', observed tv_step (exact_config cfg) (tv_new (strategy_new (exact_config cfg)) (to_xr rfr)) (exact_ctx c) sigs os' /\
      Forall2 (fun o o' => fst o' = exact_strategy (fst o) /\ same_report (tv_data (snd o)) (tv_data (snd o'))) os os') /\
  (run (metered tv_step) c (strategy_new cfg, tv_new (strategy_new cfg) rfr) sigs = Panic <->
   run (metered tv_step) (exact_ctx c) (strategy_new (exact_config cfg), tv_new (strategy_new (exact_config cfg)) (to_xr rfr)) sigs = Panic).
Proof.
  intros CE W. destruct (whole_ok _ _ _ _ _ W) as [A0 OC]. destruct W as [H1 H2 H3 H4 _].
  assert (CF : ok_config e A cfg) by (split; assumption).
  destruct (new_sim log10 e A A0 cfg CF) as [OS0 ES0].
  pose proof (tv_new_sim log10 e A A0 cfg rfr (to_xr rfr) CF) as OT0.
  pose proof (tv_run_sim log10 e H1 A (Z.of_nat (List.length sigs)) A0 ltac:(lia) H2 H3 sigs 0 c _ _ _ ltac:(lia) ltac:(lia) OC OS0 OT0) as G.
  rewrite ES0 in G. change (N112 log10) with NF112 in G. unfold observed.
  destruct (run (metered tv_step) c (strategy_new cfg, tv_new (strategy_new cfg) rfr) sigs) as [os|]; split.
  - intros os1 H. injection H as <-. exact G.
  - destruct G as (os' & -> & _). split; intros H; discriminate H.
  - intros os1 H. discriminate H.
  - rewrite G. split; reflexivity.
Qed.
(** The same for the strategy alone. *)
Theorem C112_strategy e A cfg c sigs s : sc_with_equity cfg = false -> whole_ticks e A (List.length sigs) cfg c ->
  after cfg c sigs s -> after (exact_config cfg) (exact_ctx c) sigs (exact_strategy s).
Proof.
  intros CE W [os R]. destruct (whole_ok _ _ _ _ _ W) as [A0 OC]. destruct W as [H1 H2 H3 H4 _].
  assert (CF : ok_config e A cfg) by (split; assumption). destruct (new_sim log10 e A A0 cfg CF) as [OS0 ES0].
  pose proof (strategy_run_sim log10 e H1 A (Z.of_nat (List.length sigs)) A0 ltac:(lia) H2 sigs 0 c _ ltac:(lia) ltac:(lia) OC OS0) as G.
  change (N112 log10) with NF112 in G. rewrite R in G. destruct G as [_ G]. change (N112 log10) with NF112 in ES0. rewrite ES0 in G. exists os. exact G.
Qed.


  Lemma held e A cfg c sigs s : sc_with_equity cfg = false -> whole_ticks e A (List.length sigs) cfg c -> after cfg c sigs s ->
    @ok_strategy log10 e A (Z.of_nat (List.length sigs)) s /\ after (exact_config cfg) (exact_ctx c) sigs (exact_strategy s).
  Proof.
    intros CE W [os R]. destruct (whole_ok _ _ _ _ _ W) as [A0 OC]. destruct W as [H1 H2 H3 H4 _].
    assert (CF : ok_config e A cfg) by (split; assumption). destruct (new_sim log10 e A A0 cfg CF) as [OS0 ES0].
    pose proof (strategy_run_sim log10 e H1 A (Z.of_nat (List.length sigs)) A0 ltac:(lia) H2 sigs 0 c _ ltac:(lia) ltac:(lia) OC OS0) as G.
    change (N112 log10) with NF112 in G. rewrite R in G. destruct G as [O G]. split; [exact O|]. change (N112 log10) with NF112 in ES0. rewrite ES0 in G. exists os. exact G.
  Qed.
  Lemma some_eq {T} (a b : T) : Some a = Some b -> a = b.
  Proof. intros H. injection H as ->. reflexivity. Qed.
  Lemma tk_value e A x : ticks_of e A x -> to_xr x = Fin (B2R x).
  Proof. intros [F _]. apply to_xr_finite, F. Qed.
  Lemma closed_values e A cfg c sigs s : sc_with_equity cfg = false -> whole_ticks e A (List.length sigs) cfg c -> after cfg c sigs s ->
    closed_pnls (map exact_trade (s_trades s)) = map Fin (map moved (filter t_closed (s_trades s))).
  Proof.
    intros CE W AF. destruct (held _ _ _ _ _ _ CE W AF) as [OK AX].
    assert (G : forall t, In t (s_trades s) -> t_closed t = true -> to_xr (t_pnl t) = Fin (moved t)).
    { intros t I CT. destruct (In_nth_error _ _ I) as [i Ei].
      assert (EX : nth_error (s_trades (exact_strategy s)) i = Some (exact_trade t)) by (cbn [exact_strategy s_trades]; rewrite nth_error_map, Ei; reflexivity).
      destruct (C28_trades _ _ _ _ AX i _ EX) as (et & ep & sz & _ & E1 & E2 & _ & CL & _).
      destruct (CL CT) as (xt & xp & _ & E3 & _ & E4).
      destruct OK as [_ OT _ _ _ _]. rewrite Forall_forall in OT. destruct (OT t I) as [F1 F2 F3 _].
      cbn [exact_trade t_entry_price t_exit_price t_fill t_pnl] in E1, E2, E3, E4. rewrite E4. unfold profit_at, moved.
      rewrite F1 in E2. cbn [option_map] in E2. apply some_eq in E2. rewrite <- E2 in *. clear E2.
      destruct (t_entry_price t) as [a|]; [|discriminate E1]. destruct (t_exit_price t) as [b|]; [|discriminate E3].
      cbn [option_map] in E1, E3. injection E1 as <-. injection E3 as <-.
      rewrite (tk_value _ _ _ (F2 a eq_refl)), (tk_value _ _ _ (F3 b eq_refl)).
      assert (H1 : to_xr (@fZ f64 (N112 log10) 1) = Fin 1) by (apply (to_xr_ofZ 1); cbn; lia). rewrite H1.
      cbn [exact_trade t_dir]. unfold gained, sign. destruct (t_dir t); cbn [dir_eqb]; cbn; f_equal; ring. }
    unfold closed_pnls. clear -G. induction (s_trades s) as [|t ts IH]; [reflexivity|]. cbn [map filter].
    change (t_closed (exact_trade t)) with (t_closed t). destruct (t_closed t) eqn:CT; cbn [map].
    - f_equal; [apply G; [left; reflexivity|exact CT]|]. apply IH. intros u U. apply G. right. exact U.
    - apply IH. intros u U. apply G. right. exact U.
  Qed.
  Lemma wins_sum l : total (filter (fun x => fltb (fZ 0) x) (map Fin l)) = Fin (Rplus_all (map (Rmax 0) l)) /\
    total (map fabs (filter (fun x => fltb x (fZ 0)) (map Fin l))) = Fin (Rplus_all (map (fun x => Rmax 0 (- x)) l)).
  Proof.
    assert (P : exists l1, filter (fun x => fltb (fZ 0) x) (map Fin l) = map Fin l1 /\ Rplus_all l1 = Rplus_all (map (Rmax 0) l)).
    { induction l as [|x l [l1 [E S]]]; [exists []; split; reflexivity|]. cbn [map filter]. change (fltb (fZ 0) (Fin x)) with (Rltb 0 x).
      cbn [Rplus_all map fold_right]. destruct (Rltb_spec 0 x) as [H|H].
      - exists (x :: l1). rewrite E. split; [reflexivity|]. cbn [Rplus_all fold_right]. fold (Rplus_all l1). rewrite S, Rmax_right by lra. reflexivity.
      - exists l1. split; [exact E|]. rewrite S, Rmax_left by lra. unfold Rplus_all. lra. }
    assert (Q : exists l1, map fabs (filter (fun x => fltb x (fZ 0)) (map Fin l)) = map Fin l1 /\ Rplus_all l1 = Rplus_all (map (fun x => Rmax 0 (- x)) l)).
    { clear P. induction l as [|x l [l1 [E S]]]; [exists []; split; reflexivity|]. cbn [map filter]. change (fltb (Fin x) (fZ 0)) with (Rltb x 0).
      cbn [Rplus_all map fold_right]. destruct (Rltb_spec x 0) as [H|H].
      - exists (- x :: l1). cbn [map]. rewrite E. split; [rewrite fin_abs, Rabs_left by exact H; reflexivity|]. cbn [Rplus_all fold_right]. fold (Rplus_all l1). rewrite S, Rmax_right by lra. reflexivity.
      - exists l1. split; [exact E|]. rewrite S, Rmax_left by lra. unfold Rplus_all. lra. }
    destruct P as (l1 & -> & <-), Q as (l2 & -> & <-). split; apply total_fin.
  Qed.
  (** The totals, in numbers: net profit is the sum of the closed trades' price
      moves, gross profit and loss the sums of their positive and negative
      parts, with no rounding error. *)
  Theorem C112_totals e A cfg c sigs s : sc_with_equity cfg = false -> whole_ticks e A (List.length sigs) cfg c -> after cfg c sigs s ->
    let moves := map moved (filter t_closed (s_trades s)) in let m := s_metrics s in
    B2R (sm_net m) = Rplus_all moves /\
    B2R (sm_gross_profit m) = Rplus_all (map (Rmax 0) moves) /\
    B2R (sm_gross_loss m) = Rplus_all (map (fun x => Rmax 0 (- x)) moves) /\
    B2R (sm_net m) = B2R (sm_gross_profit m) - B2R (sm_gross_loss m).
  Proof.
    intros CE W AF. cbn zeta. destruct (held _ _ _ _ _ _ CE W AF) as [OK AX]. pose proof (closed_values _ _ _ _ _ _ CE W AF) as CV.
    destruct (C30_totals _ _ _ _ AX) as (T1 & _ & _ & _ & T2 & T3 & _). cbn [exact_strategy s_trades s_metrics exact_metrics sm_net sm_gross_profit sm_gross_loss] in T1, T2, T3.
    rewrite CV in T1, T2, T3. set (mv := map moved (filter t_closed (s_trades s))) in *. destruct (wins_sum mv) as [W1 W2]. rewrite total_fin in T1. rewrite W1 in T2. rewrite W2 in T3.
    destruct OK as [_ _ _ _ [O1 _ O2 O3 _ _ _] _].
    rewrite (tk_value _ _ _ O1) in T1. rewrite (tk_value _ _ _ O2) in T2. rewrite (tk_value _ _ _ O3) in T3. injection T1 as T1. injection T2 as T2. injection T3 as T3.
    split; [exact T1|]. split; [exact T2|]. split; [exact T3|]. rewrite T1, T2, T3. clear. induction mv as [|x l IH]; cbn; [ring|].
    unfold Rplus_all in IH. rewrite IH. unfold Rmax. destruct (Rle_dec 0 x), (Rle_dec 0 (- x)); lra.
  Qed.
  (** Equity at a bar: capital, net profit and the open trade's move to the close. *)
  Theorem C112_equity e A cfg c sigs x s : sc_with_equity cfg = false -> whole_ticks e A (S (List.length sigs)) cfg c -> after cfg c (sigs ++ [x]) s ->
    let m := s_metrics s in
    B2R (sm_equity m) = B2R (sc_capital cfg) + B2R (sm_net m) + B2R (sm_open m) /\
    match newest (s_trades s) with
    | Some t => if t_closed t then B2R (sm_open m) = 0
                else exists entry close, t_entry_price t = Some entry /\
                  nth_error (p_close (c_data c)) (c_index c + List.length sigs) = Some (Some close) /\ B2R (sm_open m) = gained (t_dir t) entry close
    | None => B2R (sm_open m) = 0
    end.
  Proof.
    intros CE W AF. cbn zeta. assert (W' : whole_ticks e A (List.length (sigs ++ [x])) cfg c) by (rewrite app_length; cbn [List.length]; rewrite Nat.add_1_r; exact W).
    destruct (held _ _ _ _ _ _ CE W' AF) as [OK AX]. destruct (C31_equity _ _ _ _ _ AX) as [Q1 Q2].
    destruct OK as [[_ OC] OT _ _ [O1 O2 _ _ _ _ _] OE].
    cbn [exact_strategy s_trades s_metrics exact_metrics sm_net sm_open sm_equity exact_config sc_capital] in Q1, Q2.
    rewrite (tk_value _ _ _ O1), (tk_value _ _ _ O2), (tk_value _ _ _ OE), (tk_value _ _ _ (wt_capital _ _ _ _ _ W)), !fin_add in Q1. injection Q1 as Q1. split; [exact Q1|].
    rewrite (tk_value _ _ _ O2) in Q2.
    assert (NM : newest (map exact_trade (s_trades s)) = option_map exact_trade (newest (s_trades s))).
    { clear. destruct (s_trades s) as [|t ts _] using rev_ind; [reflexivity|]. rewrite map_app. cbn [map]. rewrite !newest_snoc. reflexivity. }
    rewrite NM in Q2. destruct (newest (s_trades s)) as [t|] eqn:NT; cbn [option_map] in Q2; [|injection Q2 as Q2; exact Q2].
    change (t_closed (exact_trade t)) with (t_closed t) in Q2. destruct (t_closed t) eqn:CT; [injection Q2 as Q2; exact Q2|].
    destruct (C31_close_needed _ _ _ _ _ _ AF NT CT) as [px PX].
    assert (IT : In t (s_trades s)).
    { clear -NT. destruct (s_trades s) as [|t0 ts _] using rev_ind; [discriminate NT|]. rewrite newest_snoc in NT. injection NT as ->. apply in_or_app. right. left. reflexivity. }
    rewrite Forall_forall in OT. destruct (OT t IT) as [F1 F2 _ _]. destruct Q2 as (en & f & E1 & E2 & Q2). cbn [exact_trade t_entry_price t_fill] in E1, E2.
    rewrite F1 in E2. cbn [option_map] in E2. apply some_eq in E2. rewrite <- E2 in *. clear E2. destruct (t_entry_price t) as [a|] eqn:EA; [|discriminate E1]. cbn [option_map] in E1. injection E1 as <-.
    exists a, px. split; [reflexivity|]. split; [exact PX|].
    unfold quote in Q2. cbn [exact_ctx c_data c_index exact_provider p_close] in Q2. rewrite nth_error_map, PX in Q2. cbn [option_map] in Q2. unfold profit_at in Q2.
    assert (TP : ticks_of e A px). { apply (wt_prices _ _ _ _ _ W (p_close (c_data c))); [cbn; tauto|]. apply (nth_error_In _ _ PX). }
    assert (H1 : to_xr (@fZ f64 (N112 log10) 1) = Fin 1) by (apply (to_xr_ofZ 1); cbn; lia).
    rewrite H1, (tk_value _ _ _ TP), (tk_value _ _ _ (F2 a eq_refl)) in Q2. cbn [exact_trade t_dir] in Q2. unfold gained, sign in *.
    destruct (t_dir t); cbn in Q2 |- *; injection Q2 as Q2; rewrite Q2; ring.
  Qed.
  (** What is printed: the amounts shown are those exact sums, and the percentages
      the exact sums over the capital, once rounded. *)
  Theorem C112_printed e A cfg rfr c sigs os s t currency : sc_with_equity cfg = false -> whole_ticks e A (List.length sigs) cfg c ->
    B2R (sc_capital cfg) <> 0 ->
    observed tv_step cfg (tv_new (strategy_new cfg) rfr) c sigs os -> newest os = Some (s, t) ->
    let rows := print_summary currency (tv_data t) in
    let moves := map moved (filter t_closed (s_trades s)) in
    let share x v := is_finite x = true /\ B2R x = round radix2 (SpecFloat.fexp 53 1024) ZnearestE (v / B2R (sc_capital cfg)) in
    forall label sum, In (label, sum) [("Net Profit", Rplus_all moves); ("Gross Profit", Rplus_all (map (Rmax 0) moves));
        ("Gross Loss", Rplus_all (map (fun x => Rmax 0 (- x)) moves))]%string ->
      exists x p, is_finite x = true /\ B2R x = sum /\ share p sum /\ cell_says rows label (fun t => amount_and_percentage newline currency t x p).
  Proof.
    intros CE W C0 O N rows moves share label sum I.
    pose proof (observed_after log10 _ _ _ _ _ _ _ O N) as AF.
    destruct (C112_totals _ _ _ _ _ _ CE W AF) as (T1 & T2 & T3 & _). cbn zeta in T1, T2, T3. fold moves in T1, T2, T3.
    destruct (held _ _ _ _ _ _ CE W AF) as [OK _]. destruct OK as [_ _ _ _ [O1 _ O2 O3 _ _ _] _].
    destruct (C30_totals cfg c sigs s AF) as (H1 & _ & _ & _ & H5 & H6 & _). cbn zeta in *.
    pose proof (C110_backtest log10 cfg rfr c sigs os s t currency O N) as P. cbn zeta in P. destruct P as (_ & _ & _ & _ & P1 & P2 & P3 & _).
    assert (SH : forall x, ticks_of e (2 * A * Z.of_nat (List.length sigs)) x -> share (fdiv x (sc_capital cfg)) (B2R x)).
    { intros x TX. destruct (whole_ok _ _ _ _ _ W) as [A0 _]. pose proof (wt_few _ _ _ _ _ W) as WF. pose proof (wt_capital _ _ _ _ _ W) as TC.
      pose proof (ratio_nearest log10 e (wt_size _ _ _ _ _ W) _ _ _ _ TX TC ltac:(nia)) as RN. change (N112 log10) with NF112 in RN. apply RN.
      rewrite (tk_value _ _ _ TX), (tk_value _ _ _ TC). apply fin_div, C0. }
    assert (G : forall x v, ticks_of e (2 * A * Z.of_nat (List.length sigs)) x -> B2R x = v ->
      cell_says rows label (fun t => amount_and_percentage newline currency t x (fdiv x (sc_capital cfg))) ->
      exists x p, is_finite x = true /\ B2R x = v /\ share p v /\ cell_says rows label (fun t => amount_and_percentage newline currency t x p)).
    { intros x v TX <- CS. exists x, (fdiv x (sc_capital cfg)). split; [apply TX|]. split; [reflexivity|]. split; [exact (SH _ TX)|exact CS]. }
    destruct I as [I|[I|[I|[]]]]; injection I as <- <-.
    - apply (G (sm_net (s_metrics s))); [exact O1|exact T1|]. rewrite H1. exact P1.
    - apply (G (sm_gross_profit (s_metrics s))); [exact O2|exact T2|]. rewrite H5. exact P2.
    - apply (G (sm_gross_loss (s_metrics s))); [exact O3|exact T3|]. rewrite H6. exact P3.
  Qed.
End C112.

(** ** Cases. *)
Lemma ticks_int e A z : (-1074 <= e <= 0)%Z -> (Z.abs z <= 2 ^ 53)%Z -> (Z.abs z * 2 ^ (- e) <= A)%Z -> ticks_of e A (q z).
Proof.
  intros E Z1 Z2. destruct (f64_ofZ_correct z Z1) as (V & F). split; [exact F|]. exists (z * 2 ^ (- e))%Z. split.
  - unfold q. rewrite V. rewrite mult_IZR, (IZR_Zpower radix2) by lia. rewrite Rmult_assoc, <- bpow_plus.
    replace (- e + e)%Z with 0%Z by lia. cbn. ring.
  - rewrite Z.abs_mul, (Z.abs_eq (2 ^ - e)) by (apply Z.pow_nonneg; lia). exact Z2.
Qed.
Definition cfg112 : sconfig f64 := mkSConfig false true (q 1000) false.
Lemma ctx6_ticks e A n : (-1074 <= e <= 0)%Z -> (1000 * 2 ^ (- e) <= A)%Z -> ((4 * Z.of_nat n + 6) * A < 2 ^ 53)%Z -> whole_ticks e A n cfg112 ctx6.
Proof.
  intros E HA HN. assert (P : (0 < 2 ^ (- e))%Z) by (apply Z.pow_pos_nonneg; lia).
  assert (T : forall z, (Z.abs z <= 1000)%Z -> ticks_of e A (q z)).
  { intros z Hz. apply ticks_int; [exact E|lia|]. nia. }
  constructor; [lia|exact HN|nia|apply T; lia|].
  assert (G : forall zs, (forall z, In z zs -> (Z.abs z <= 1000)%Z) -> forall x, In (Some x) (qs zs) -> ticks_of e A x).
  { intros zs B x I. unfold qs in I. apply in_map_iff in I. destruct I as (z & E1 & I). apply some_eq in E1. subst x. apply T, B, I. }
  intros col [<-|[<-|[<-|[<-|[]]]]] x I.
  - apply (G [10; 11; 13; 12; 9; 10]%Z); [|exact I]. cbn; intuition (subst; cbn; lia).
  - apply (G [12; 14; 15; 13; 11; 16]%Z); [|exact I]. cbn; intuition (subst; cbn; lia).
  - apply (G [9; 10; 12; 8; 7; 10]%Z); [|exact I]. cbn; intuition (subst; cbn; lia).
  - apply (G [11; 13; 12; 9; 10; 15]%Z); [|exact I]. cbn; intuition (subst; cbn; lia).
Qed.
(** Whole prices, quarters (e = -2), and two million bars of prices with eight binary places. *)
Example C112_holds : whole_ticks 0 1000 6 cfg112 ctx6 /\ whole_ticks (-2) 4000 6 cfg112 ctx6 /\ whole_ticks (-8) 256000 (Z.to_nat 2000000) cfg112 ctx6.
Proof. split; [|split]; apply ctx6_ticks; rewrite ?Z2Nat.id; cbn; lia. Qed.
Definition rows112 (cfg : sconfig f64) (c : ctx f64) (sigs : list (option direction)) : list (string * string) :=
  match run (metered tv_step) c (strategy_new cfg, tv_new (strategy_new cfg) (q 0)) sigs with
  | Ok os => match rev os with (_, t) :: _ => firstn 5 (print_summary "USD" (tv_data t)) | [] => [] end
  | Panic => []
  end.
Example C112_ex : rows112 cfg112 ctx6 sig6 =
  [("Net Profit", "3.00 USD" ++ newline ++ "0.30%"); ("Gross Profit", "3.00 USD" ++ newline ++ "0.30%");
   ("Gross Loss", "0.00 USD" ++ newline ++ "0.00%"); ("Max Run Up", "9.00 USD" ++ newline ++ "0.89%");
   ("Max Drawdown", "1.00 USD" ++ newline ++ "0.10%")]%string.
Proof. vm_compute. reflexivity. Qed.

(** The hypothesis matters: bought at 0.1 and sold at 100, the reported net
    profit is not the difference of the two prices. *)
Definition tenth : f64 := fdiv (q 1) (q 10).
Definition ctx112 : ctx f64 :=
  let col := [Some tenth; Some tenth; Some (q 100)] in mkCtx (mkProvider col col col col (qs [1; 1; 1]%Z) (repeat None 3) 0 2) 0 2 3 0 false.
Definition facts112 (r : res (strategy f64 * list unit)) :=
  match r with
  | Ok (s, _) => Some (B2SF (sm_net (s_metrics s)), map (fun t => (t_dir t, option_map B2SF (t_entry_price t), option_map B2SF (t_exit_price t))) (filter t_closed (s_trades s)))
  | Panic => None
  end.
Lemma facts_decimal r : facts112 r = Some (SpecFloat.S754_finite false 7029837543348634 (-46),
    [(Long, Some (SpecFloat.S754_finite false 7205759403792794 (-56)), Some (SpecFloat.S754_finite false 7036874417766400 (-46)))]) ->
  exists s os, r = Ok (s, os) /\ B2R (sm_net (s_metrics s)) <> Rplus_all (map moved (filter t_closed (s_trades s))).
Proof.
  intros H. destruct r as [[s os]|]; [|discriminate H]. exists s, os. split; [reflexivity|]. cbn [facts112] in H. apply some_eq in H.
  destruct (filter t_closed (s_trades s)) as [|t [|t' ts]]; [discriminate H| |discriminate H].
  injection H as H1 H2 H3 H4. unfold Rplus_all. cbn [map fold_right]. unfold moved, gained. destruct t as [d cl et [a|] xt [b|] fl pn]; cbn [t_dir t_entry_price t_exit_price option_map] in *; try discriminate H3; try discriminate H4.
  subst d. cbn [dir_eqb]. apply some_eq in H3. apply some_eq in H4.
  rewrite <- !(SF2R_B2SF 53 1024), H1, H3, H4. unfold SF2R, F2R, cond_Zopp, bpow. cbn [Fnum Fexp]. cbn. lra.
Qed.
Example C112_decimal : exists s, after (cfg112) ctx112 [Some Long; Some Short; None] s /\
  B2R (sm_net (s_metrics s)) <> Rplus_all (map moved (filter t_closed (s_trades s))).
Proof.
  destruct (facts_decimal (run_st strategy_step ctx112 (strategy_new cfg112) [Some Long; Some Short; None])) as (s & os & H & N); [vm_compute; reflexivity|].
  exists s. split; [exists os; exact H|exact N].
Qed.
