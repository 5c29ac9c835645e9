(** * PropSplit2: C126 (performance reports under a power-of-two change of the price unit, bit for bit in f64). *)
From Coq Require Import Reals Lra Lia Psatz.
From Flocq Require Import Core IEEE754.BinarySingleNaN.
From Verif Require Import PropSplit.
From Verif Require Import PropBacktest PStrategy PMetrics PropMetrics PropMetrics2.
From Verif Require Import Inst PRound.
Local Open Scope R_scope.

Section Simulate.
  Context {F : Type} {NF : Num F} {M : Type}.
  (** Two metered runs, bar by bar. *)
  Lemma metered_sim (mstep : ctx F -> M -> strategy F -> res (M * unit)) cfg cfg' (m0 m0' : M) c c' (Q : M -> M -> Prop) (OK : strategy F -> Prop) sigs :
    Q m0 m0' ->
    (forall xs x s s' m m' n n', (List.length (xs ++ [x]) <= List.length sigs)%nat -> OK s -> after cfg c (xs ++ [x]) s -> after cfg' c' (xs ++ [x]) s' -> Q m m' ->
       mstep (ctx_at c (List.length xs)) m s = Ok (n, tt) -> mstep (ctx_at c' (List.length xs)) m' s' = Ok (n', tt) -> Q n n') ->
    forall os os', observed mstep cfg m0 c sigs os -> observed mstep cfg' m0' c' sigs os' -> Forall (fun o => OK (fst o)) os ->
    Forall2 (fun o o' => Q (snd o) (snd o')) os os'.
  Proof.
    intros Q0 ST. unfold observed, run.
    assert (G : forall ys, (List.length ys <= List.length sigs)%nat -> forall s m os s' m' os', run_st (metered mstep) c (strategy_new cfg, m0) ys = Ok ((s, m), os) -> run_st (metered mstep) c' (strategy_new cfg', m0') ys = Ok ((s', m'), os') ->
      Forall (fun o => OK (fst o)) os -> run_st strategy_step c (strategy_new cfg) ys = Ok (s, repeat tt (List.length ys)) /\ run_st strategy_step c' (strategy_new cfg') ys = Ok (s', repeat tt (List.length ys)) /\ Q m m' /\ Forall2 (fun o o' => Q (snd o) (snd o')) os os').
    { induction ys as [|x ys IH] using rev_ind; intros LY s m os s' m' os' E E' H.
      - cbn in E, E'. injection E as <- <- <-. injection E' as <- <- <-. repeat split; [exact Q0|constructor].
      - rewrite run_st_app in E, E'. destruct (run_st (metered mstep) c (strategy_new cfg, m0) ys) as [[[s1 m1] o1]|]; [|discriminate E].
        destruct (run_st (metered mstep) c' (strategy_new cfg', m0') ys) as [[[s1' m1'] o1']|]; [|discriminate E'].
        cbn [rbind run_st] in E, E'. unfold metered at 1 in E. unfold metered at 1 in E'. cbn [fst snd] in E, E'.
        destruct (strategy_step (ctx_at c (List.length ys)) s1 x) as [[s2 []]|] eqn:ES; [|discriminate E]. cbn [rbind] in E.
        destruct (mstep (ctx_at c (List.length ys)) m1 s2) as [[m2 []]|] eqn:EM; [|discriminate E]. cbn [rbind] in E. injection E as -> -> <-.
        destruct (strategy_step (ctx_at c' (List.length ys)) s1' x) as [[s2' []]|] eqn:ES'; [|discriminate E']. cbn [rbind] in E'.
        destruct (mstep (ctx_at c' (List.length ys)) m1' s2') as [[m2' []]|] eqn:EM'; [|discriminate E']. cbn [rbind] in E'. injection E' as -> -> <-.
        apply Forall_app in H. destruct H as [H1 H2]. inversion H2 as [|? ? H3 _]; subst. cbn [fst] in H3.
        destruct (IH ltac:(rewrite app_length in LY; lia) _ _ _ _ _ _ eq_refl eq_refl H1) as (R1 & R2 & Q1 & Q2).
        assert (A : run_st strategy_step c (strategy_new cfg) (ys ++ [x]) = Ok (s, repeat tt (List.length (ys ++ [x])))) by (rewrite run_st_app, R1; cbn [rbind run_st]; rewrite ES; cbn [rbind]; rewrite app_length, repeat_app; reflexivity).
        assert (A' : run_st strategy_step c' (strategy_new cfg') (ys ++ [x]) = Ok (s', repeat tt (List.length (ys ++ [x])))) by (rewrite run_st_app, R2; cbn [rbind run_st]; rewrite ES'; cbn [rbind]; rewrite app_length, repeat_app; reflexivity).
        assert (QQ : Q m m') by (eapply (ST ys x s s'); [exact LY|exact H3|eexists; exact A|eexists; exact A'|exact Q1|exact EM|exact EM']).
        split; [exact A|]. split; [exact A'|]. split; [exact QQ|]. apply Forall2_app; [exact Q2|]. constructor; [exact QQ|constructor]. }
    intros os os' E E' H. destruct (run_st (metered mstep) c (strategy_new cfg, m0) sigs) as [[[s m] o]|] eqn:R1; [|discriminate E]. destruct (run_st (metered mstep) c' (strategy_new cfg', m0') sigs) as [[[s' m'] o']|] eqn:R2; [|discriminate E'].
    cbn [rmap rbind snd] in E, E'. injection E as ->. injection E' as ->. destruct (G sigs (le_n _) _ _ _ _ _ _ R1 R2 H) as (_ & _ & _ & R). exact R.
  Qed.
  (** The events of the bar are those of the trades. *)
  Lemma exit_sim (cfg cfg' : sconfig F) c c' xs x s s' (phi : trade F -> trade F) : after cfg c (xs ++ [x]) s -> after cfg' c' (xs ++ [x]) s' -> c_index c' = c_index c ->
    (forall t, t_exit_tick (phi t) = t_exit_tick t) -> s_trades s' = map phi (s_trades s) -> s_on_exit s' = option_map phi (s_on_exit s).
  Proof.
    intros A A' I P T. destruct (s_on_exit s) as [t|] eqn:E; cbn [option_map].
    - destruct (C34_events _ _ _ _ _ A t) as [H _]. destruct (C34_events _ _ _ _ _ A' (phi t)) as [H' _]. cbn zeta in H, H'. apply H' . apply H in E. destruct E as [E1 E2]. rewrite T, P, I. split; [apply in_map, E1|exact E2].
    - destruct (s_on_exit s') as [t'|] eqn:E'; [|reflexivity]. exfalso. destruct (C34_events _ _ _ _ _ A' t') as [H' _]. cbn zeta in H'. apply H' in E'. destruct E' as [E1 E2]. rewrite T in E1. apply in_map_iff in E1. destruct E1 as (t & <- & It).
      destruct (C34_events _ _ _ _ _ A t) as [H _]. cbn zeta in H. rewrite P, I in E2. pose proof (proj2 H (conj It E2)) as X. congruence.
  Qed.
  Lemma place_len cfg ps (o : nat * F * direction) : (List.length (place cfg ps o) <= S (List.length ps))%nat.
  Proof.
    unfold place. destruct (newest ps) as [p|] eqn:N; [|rewrite app_length; cbn; lia]. destruct (pos_closed p); [rewrite app_length; cbn; lia|]. destruct (dir_eqb (pos_dir p) (snd o)); [lia|].
    assert (L : List.length (removelast ps ++ [leave p o]) = List.length ps) by (rewrite (newest_split _ _ N) at 2; rewrite !app_length; reflexivity).
    destruct (sc_continuous cfg); [rewrite app_length|]; rewrite L; cbn; lia.
  Qed.
  Lemma pos_at_len cfg (d : provider F) i0 sigs : (List.length (pos_at cfg d i0 sigs) <= List.length sigs)%nat.
  Proof.
    induction sigs as [|x sigs IH] using rev_ind; [unfold pos_at, orders; destruct (sc_on_close cfg); cbn; lia|].
    rewrite pos_at_snoc, app_length. cbn [List.length]. destruct (new_order cfg d i0 sigs x) as [|o ol]; [lia|]. pose proof (place_len cfg (pos_at cfg d i0 sigs) o). lia.
  Qed.
  Lemma trades_len cfg (c : ctx F) sigs s : after cfg c sigs s -> (List.length (s_trades s) <= List.length sigs)%nat.
  Proof. intros A. rewrite (tr_trades _ _ _ _ _ (after_tracks _ _ _ _ A)), map_length. apply pos_at_len. Qed.
End Simulate.

Section Equity.
  Variable log10 : f64 -> f64.
  #[local] Instance N126 : Num f64 := IEEE log10.
  #[local] Instance O126 : OrdNum f64 := IEEEOrd log10.
  Variable k : Z.
  Hypothesis K : (0 <= k)%Z.
  Notation t2 := (times2 k).
  Notation half := (split_trade k (shares k) (fun g => g)).

  (** Entry prices come from the market. *)
  Lemma entry_room cfg c sigs s t x : all_usable k (p_open (c_data c)) -> all_usable k (p_close (c_data c)) -> after cfg c sigs s -> In t (s_trades s) -> t_entry_price t = Some x -> room k 1 x.
  Proof.
    intros UO UL A I E. rewrite (tr_trades _ _ _ _ _ (after_tracks _ _ _ _ A)) in I. apply in_map_iff in I. destruct I as (p & <- & I). cbn [as_trade t_entry_price] in E. injection E as <-.
    assert (OS : Forall (fun o : nat * f64 * direction => room k 1 (snd (fst o))) (orders cfg (c_data c) (c_index c) sigs)).
    { unfold orders. apply Forall_forall. intros o Io. destruct (sc_on_close cfg) eqn:OC; apply in_flat_map in Io; destruct Io as (j & _ & Io); unfold order_at in Io;
        destruct (nth j sigs None); cbn in Io; try contradiction; destruct Io as [<-|[]]; cbn [fst snd]; apply (quote_room log10 k K); assumption. }
    assert (G : Forall (fun p : position f64 => room k 1 (snd (pos_in p))) (pos_at cfg (c_data c) (c_index c) sigs)); [|rewrite Forall_forall in G; exact (G p I)].
    unfold pos_at, book. clear I p. revert OS. generalize (orders cfg (c_data c) (c_index c) sigs). intros os OS. assert (G0 : Forall (fun p : position f64 => room k 1 (snd (pos_in p))) []) by constructor. revert G0. generalize (@nil (position f64)).
    induction OS as [|o os Ho OS IH]; intros ps G; [exact G|]. cbn [fold_left]. apply IH. unfold place.
    assert (EN : forall ps, room k 1 (snd (pos_in (enter cfg ps o)))) by (intros; destruct o as [[? ?] ?]; exact Ho).
    destruct (newest ps) as [p|] eqn:N; [|apply Forall_app; split; [exact G|constructor; [apply EN|constructor]]].
    destruct (pos_closed p); [apply Forall_app; split; [exact G|constructor; [apply EN|constructor]]|]. destruct (dir_eqb (pos_dir p) (snd o)); [exact G|].
    assert (L : Forall (fun p : position f64 => room k 1 (snd (pos_in p))) (removelast ps ++ [leave p o])).
    { rewrite (newest_split _ _ N) in G. apply Forall_app in G. destruct G as [G1 G2]. apply Forall_app. split; [exact G1|]. constructor; [|constructor]. inversion G2 as [|? ? G3 _]; subst. destruct o as [[? ?] ?]. exact G3. }
    destruct (sc_continuous cfg); [apply Forall_app; split; [exact L|constructor; [apply EN|constructor]]|exact L].
  Qed.
  Lemma few2' : few 2. Proof. unfold few; cbn; lia. Qed.
  Lemma vget2 (v : list (option f64)) i : vget (scaled k v) i = rmap (option_map t2) (vget v i).
  Proof. unfold vget. rewrite nth_error_map. destruct (nth_error v i); reflexivity. Qed.
  Lemma vget_room v i x : all_usable k v -> vget v i = Ok (Some x) -> room k 1 x.
  Proof. intros U E. unfold vget in E. destruct (nth_error v i) eqn:N; [|discriminate E]. injection E as ->. apply usable_room, U, (nth_error_In _ _ N). Qed.
  Lemma pnl2 t x : (forall e, t_entry_price t = Some e -> room k 1 e) -> (forall f, t_fill t = Some f -> divisible k f) -> room k 1 x ->
    trade_cur_pnl (half t) (t2 x) = trade_cur_pnl t x.
  Proof.
    intros E D X. unfold trade_cur_pnl. cbn [split_trade t_fill t_entry_price t_dir]. destruct (t_fill t) as [f|]; [|reflexivity]. cbn [option_map unwrap rbind].
    destruct (t_entry_price t) as [e|]; [|reflexivity]. cbn [option_map unwrap rbind]. unfold trade_pnl. do 2 f_equal.
    apply (stake k K); [|apply D; reflexivity]. apply (sc_sub k 1 1); [exact K|exact few2'|split; [exact X|reflexivity]|split; [apply E; reflexivity|reflexivity]].
  Qed.
  Lemma split_last_map' {A B : Type} (f : A -> B) l : split_last (map f l) = option_map (fun '(o, x) => (map f o, f x)) (split_last l).
  Proof. unfold split_last. rewrite <- map_rev. destruct (rev l) as [|x r]; [reflexivity|]. cbn [map option_map]. rewrite map_rev. reflexivity. Qed.
  Lemma split_last_in {A : Type} (l older : list A) x : split_last l = Some (older, x) -> In x l.
  Proof. unfold split_last. intros H. apply in_rev. destruct (rev l) as [|y r]; [discriminate H|]. injection H as _ ->. left. reflexivity. Qed.

  Lemma equity2 c e s s' : all_usable k (p_high (c_data c)) -> all_usable k (p_low (c_data c)) -> (forall t x, In t (s_trades s) -> t_entry_price t = Some x -> room k 1 x) ->
    (forall t f, In t (s_trades s) -> t_fill t = Some f -> divisible k f) -> s_config s' = s_config s -> s_trades s' = map half (s_trades s) -> s_metrics s' = s_metrics s -> s_on_exit s' = option_map half (s_on_exit s) ->
    equity_step (split_ctx k c) e s' = equity_step c e s.
  Proof.
    intros UH UL E D C T M X. unfold equity_step. rewrite C, T, M, X, split_last_map'.
    set (nets := match s_on_exit s with Some _ => _ | None => _ end). set (nets' := match option_map half (s_on_exit s) with Some _ => _ | None => _ end).
    assert (N : nets' = nets) by (unfold nets, nets'; destruct (s_on_exit s); reflexivity). rewrite N. clear N nets'. destruct nets as [[net nmin] nmax].
    destruct (split_last (s_trades s)) as [[older last]|] eqn:SL; cbn [option_map]; [|reflexivity]. apply split_last_in in SL.
    change (t_closed (half last)) with (t_closed last). destruct (t_closed last); [reflexivity|].
    unfold bar_low, bar_high. cbn [split_ctx c_data c_index split_provider p_low p_high]. rewrite !vget2.
    destruct (vget (p_low (c_data c)) (c_index c)) as [[lo|]|] eqn:VL; try reflexivity. apply vget_room in VL; [|exact UL]. cbn [rmap rbind option_map unwrap].
    destruct (vget (p_high (c_data c)) (c_index c)) as [[hi|]|] eqn:VH; try reflexivity. apply vget_room in VH; [|exact UH]. cbn [rmap rbind option_map unwrap].
    change (t_dir (half last)) with (t_dir last). destruct (t_dir last); rewrite !pnl2 by (assumption || (intros; apply (E last); assumption) || (intros; apply (D last); assumption)); reflexivity.
  Qed.
  Lemma states2 (cfg : sconfig f64) c xs x s s' : sc_with_equity cfg = true -> all_usable k (p_open (c_data c)) -> all_usable k (p_close (c_data c)) ->
    (forall t f, In t (s_trades s) -> t_fill t = Some f -> divisible k f) -> after cfg c (xs ++ [x]) s -> after cfg (split_ctx k c) (xs ++ [x]) s' ->
    s_config s' = s_config s /\ s_trades s' = map half (s_trades s) /\ s_metrics s' = s_metrics s /\ s_on_exit s' = option_map half (s_on_exit s).
  Proof.
    intros WE UO UL D A A'. destruct (C125_backtest_equity log10 k K cfg c xs x s s' WE UO UL D A A') as [T M].
    split; [rewrite (tr_cfg _ _ _ _ _ (after_tracks _ _ _ _ A)), (tr_cfg _ _ _ _ _ (after_tracks _ _ _ _ A')); reflexivity|]. split; [exact T|]. split; [exact M|].
    apply (exit_sim cfg cfg c (split_ctx k c) xs x s s' half A A' eq_refl); [intros t; reflexivity|exact T].
  Qed.

  (** Trades sized by equity, prices multiplied by [2^k], the same capital: the
      same TradingView report, bit for bit, at every bar. *)
  Theorem C126_tradingview_equity (cfg : sconfig f64) rfr c sigs os os' : sc_with_equity cfg = true ->
    (forall col, In col [p_open (c_data c); p_high (c_data c); p_low (c_data c); p_close (c_data c)] -> all_usable k col) ->
    observed tv_step cfg (tv_new (strategy_new cfg) rfr) c sigs os -> observed tv_step cfg (tv_new (strategy_new cfg) rfr) (split_ctx k c) sigs os' ->
    (forall o t f, In o os -> In t (s_trades (fst o)) -> t_fill t = Some f -> divisible k f) ->
    map snd os' = map snd os.
  Proof.
    intros WE U O O' D. assert (UO : all_usable k (p_open (c_data c))) by (apply U; cbn; auto). assert (UH : all_usable k (p_high (c_data c))) by (apply U; cbn; auto). assert (UL : all_usable k (p_low (c_data c))) by (apply U; cbn; auto). assert (UC : all_usable k (p_close (c_data c))) by (apply U; cbn; auto 6).
    enough (H : Forall2 (fun o o' => snd o' = snd o) os os') by (clear - H; induction H as [|? ? ? ? E H IH]; [reflexivity|]; cbn [map]; rewrite E; f_equal; exact IH).
    apply (metered_sim tv_step cfg cfg (tv_new (strategy_new cfg) rfr) (tv_new (strategy_new cfg) rfr) c (split_ctx k c) (fun m m' => m' = m) (fun s => forall t f, In t (s_trades s) -> t_fill t = Some f -> divisible k f) sigs); [reflexivity| |exact O|exact O'|apply Forall_forall; intros o I t f; apply (D o t f I)].
    intros xs x s s' m m' n n' _ DS A A' -> E E'.
    destruct (states2 cfg c xs x s s' WE UO UC DS A A') as (C & T & M & X).
    assert (EQ : equity_step (ctx_at (split_ctx k c) (List.length xs)) (tv_eqm m) s' = equity_step (ctx_at c (List.length xs)) (tv_eqm m) s).
    { change (ctx_at (split_ctx k c) (List.length xs)) with (split_ctx k (ctx_at c (List.length xs))). apply equity2; try assumption.
      intros t y I Ey. exact (entry_room cfg c _ s t y UO UC A I Ey). }
    unfold tv_step in E, E'. rewrite EQ, C, M, X in E'. destruct (equity_step (ctx_at c (List.length xs)) (tv_eqm m) s) as [[eqm []]|]; [|discriminate E]. cbn [rbind] in E, E'.
    assert (IS : is_some (option_map half (s_on_exit s)) = is_some (s_on_exit s)) by (destruct (s_on_exit s); reflexivity). rewrite IS in E'.
    destruct (sstdev_next _ _) as [a b]. congruence.
  Qed.

  Lemma Ok_inj' {A} (a b : A) : Ok a = Ok b -> a = b. Proof. congruence. Qed.
  (** The figures of a Cobra report other than the intra-trade drawdown. *)
  Definition but_intra (b : cobra f64) : list f64 * nat :=
    ([cb_eq_max_dd b; cb_sortino b; cb_sharpe b; cb_profit_factor b; cb_profitable b; cb_omega b; cb_ls_ratio b], cb_trades b).
  Definition with_intra (b : cobra f64) (x : f64) : cobra f64 :=
    mkCobra (cb_estimated b) (cb_start_year b) (cb_eq_max_dd b) x (cb_sortino b) (cb_sharpe b) (cb_profit_factor b) (cb_profitable b) (cb_trades b) (cb_omega b) (cb_ls_ratio b)
      (cb_cur_dd b) (cb_annualized b) (cb_mean b) (cb_stdev b) (cb_pos_sum b) (cb_neg_stdev b) (cb_neg_sum b) (cb_prev_equity b) (cb_rfr b) (cb_eqm b).
  Lemma exit2 b i s s' b1 b1' : s_metrics s' = s_metrics s -> s_on_exit s' = option_map half (s_on_exit s) ->
    cobra_on_exit b s = Ok b1 -> cobra_on_exit (with_intra b i) s' = Ok b1' -> exists j, b1' = with_intra b1 j.
  Proof.
    intros M X E E'. unfold cobra_on_exit in *. rewrite X in E'. destruct (s_on_exit s) as [t|]; cbn [option_map] in E'.
    - cbn [split_trade t_entry_price] in E'. destruct (t_entry_price t) as [p|]; [|discriminate E]. cbn [option_map unwrap rbind] in E, E'. rewrite M in E'. apply Ok_inj' in E. apply Ok_inj' in E'. subst b1 b1'. eexists. reflexivity.
    - apply Ok_inj' in E. apply Ok_inj' in E'. subst. eexists. reflexivity.
  Qed.
  Theorem C126_cobra_equity (cfg : sconfig f64) est start c sigs os os' : sc_with_equity cfg = true ->
    (forall col, In col [p_open (c_data c); p_high (c_data c); p_low (c_data c); p_close (c_data c)] -> all_usable k col) ->
    observed cobra_step cfg (cobra_new (strategy_new cfg) est start) c sigs os -> observed cobra_step cfg (cobra_new (strategy_new cfg) est start) (split_ctx k c) sigs os' ->
    (forall o t f, In o os -> In t (s_trades (fst o)) -> t_fill t = Some f -> divisible k f) ->
    map (fun o => but_intra (snd o)) os' = map (fun o => but_intra (snd o)) os.
  Proof.
    intros WE U O O' D. assert (UO : all_usable k (p_open (c_data c))) by (apply U; cbn; auto). assert (UH : all_usable k (p_high (c_data c))) by (apply U; cbn; auto). assert (UL : all_usable k (p_low (c_data c))) by (apply U; cbn; auto). assert (UC : all_usable k (p_close (c_data c))) by (apply U; cbn; auto 6).
    enough (H : Forall2 (fun o o' => exists i, snd o' = with_intra (snd o) i) os os') by (clear - H; induction H as [|? ? ? ? [i E] H IH]; [reflexivity|]; cbn [map]; rewrite E; f_equal; exact IH).
    apply (metered_sim cobra_step cfg cfg (cobra_new (strategy_new cfg) est start) (cobra_new (strategy_new cfg) est start) c (split_ctx k c) (fun m m' => exists i, m' = with_intra m i) (fun s => forall t f, In t (s_trades s) -> t_fill t = Some f -> divisible k f) sigs);
      [eexists; reflexivity| |exact O|exact O'|apply Forall_forall; intros o I t f; apply (D o t f I)].
    intros xs x s s' m m' n n' _ DS A A' [i ->] E E'.
    destruct (states2 cfg c xs x s s' WE UO UC DS A A') as (C & T & M & X).
    assert (EQ : forall e, equity_step (ctx_at (split_ctx k c) (List.length xs)) e s' = equity_step (ctx_at c (List.length xs)) e s).
    { intros e. change (ctx_at (split_ctx k c) (List.length xs)) with (split_ctx k (ctx_at c (List.length xs))). apply equity2; try assumption.
      intros t y I Ey. exact (entry_room cfg c _ s t y UO UC A I Ey). }
    unfold cobra_step in E, E'. destruct (cobra_on_exit m s) as [b1|] eqn:X1; [|discriminate E]. destruct (cobra_on_exit (with_intra m i) s') as [b1'|] eqn:X2; [|discriminate E'].
    destruct (exit2 _ _ _ _ _ _ M X X1 X2) as [j ->]. cbn [rbind] in E, E'. rewrite EQ in E'. change (cb_eqm (with_intra b1 j)) with (cb_eqm b1) in E'.
    destruct (equity_step (ctx_at c (List.length xs)) (cb_eqm b1) s) as [[eqm []]|]; [|discriminate E]. cbn [rbind] in E, E'.
    change (bar_year (ctx_at (split_ctx k c) (List.length xs))) with (bar_year (ctx_at c (List.length xs))) in E'. cbn [with_intra cb_estimated cb_start_year cb_eq_max_dd cb_sortino cb_sharpe cb_profit_factor cb_profitable cb_trades cb_omega cb_ls_ratio cb_cur_dd cb_annualized cb_mean cb_stdev cb_pos_sum cb_neg_stdev cb_neg_sum cb_prev_equity cb_rfr cb_intra_dd] in E'.
    destruct (match cb_start_year b1 with Some y => _ | None => _ end) as [skip|]; [|discriminate E]. cbn [rbind] in E, E'. destruct skip.
    - apply Ok_inj' in E. apply Ok_inj' in E'. exists j. apply (f_equal fst) in E. apply (f_equal fst) in E'. cbn [fst] in E, E'. subst n n'. reflexivity.
    - destruct (mean_next _ _) as [a1 a2]. destruct (sstdev_next (cb_stdev b1) _) as [a3 a4]. destruct (sstdev_next (cb_neg_stdev b1) _) as [a5 a6].
      apply Ok_inj' in E. apply Ok_inj' in E'. exists j. apply (f_equal fst) in E. apply (f_equal fst) in E'. cbn [fst] in E, E'. subst n n'. reflexivity.
  Qed.
End Equity.

Section OneShare.
  Variable log10 : f64 -> f64.
  #[local] Instance N126s : Num f64 := IEEE log10.
  #[local] Instance O126s : OrdNum f64 := IEEEOrd log10.
  Variable k : Z.
  Hypothesis K : (0 <= k)%Z.
  Variable n : nat.
  Hypothesis FN : few (4 * n + 8).
  Notation t2 := (times2 k).
  Notation whole := (split_trade k (fun f => f) (times2 k)).
  Notation A1 := (2 * n + 1)%nat.
  Notation J3 := (2 * n + 3)%nat.
  Ltac fews := apply few_le with (2 := FN); lia.

  Definition modest (m : smetrics f64) : Prop :=
    room k J3 (sm_equity m) /\ room k (2 * n) (sm_net m) /\ room k 2 (sm_open m) /\ room k (2 * n) (sm_gross_profit m) /\ room k (2 * n) (sm_gross_loss m) /\
    room k (2 * n) (sm_long_net m) /\ room k (2 * n) (sm_short_net m) /\ (sm_closed m <= n)%nat /\ (sm_winning m <= n)%nat /\ (sm_losing m <= n)%nat.
  Lemma filter_len {A} (f : A -> bool) l : (List.length (filter f l) <= List.length l)%nat.
  Proof. induction l as [|p l IH]; cbn [filter List.length]; [lia|destruct (f p); cbn [List.length]; lia]. Qed.
  Lemma states1 (cfg : sconfig f64) c xs x s s' : sc_with_equity cfg = false -> usable k (sc_capital cfg) -> all_usable k (p_open (c_data c)) -> all_usable k (p_close (c_data c)) ->
    (List.length (xs ++ [x]) <= n)%nat -> after cfg c (xs ++ [x]) s -> after (with_capital cfg (t2 (sc_capital cfg))) (split_ctx k c) (xs ++ [x]) s' ->
    (s_config s = cfg /\ s_config s' = with_capital cfg (t2 (sc_capital cfg))) /\ s_trades s' = map whole (s_trades s) /\ s_metrics s' = split_metrics k (s_metrics s) /\ s_on_exit s' = option_map whole (s_on_exit s) /\
    (forall t, In t (s_trades s) -> t_fill t = Some (fZ 1)) /\ modest (s_metrics s).
  Proof.
    intros WE UC UO UL LN A A'. pose proof (trades_len _ _ _ _ A) as LT.
    destruct (C125_backtest log10 k K cfg c xs x s s' WE UC UO UL) as [T M]; [fews|exact A|exact A'|].
    split; [split; [exact (tr_cfg _ _ _ _ _ (after_tracks _ _ _ _ A))|exact (tr_cfg _ _ _ _ _ (after_tracks _ _ _ _ A'))]|]. split; [exact T|]. split; [exact M|].
    split; [apply (exit_sim cfg (with_capital cfg (t2 (sc_capital cfg))) c (split_ctx k c) xs x s s' whole A A' eq_refl); [intros t; reflexivity|exact T]|].
    pose proof (after_tracks _ _ _ _ A) as TR. assert (UF : all_usable k (fills cfg (c_data c))) by (unfold fills; destruct (sc_on_close cfg); assumption).
    destruct (book1 log10 k K cfg (t2 (sc_capital cfg)) (c_data c) (c_index c) (xs ++ [x]) WE UF) as [B G]. change (N125b log10) with N126s in B, G. set (ps := pos_at cfg (c_data c) (c_index c) (xs ++ [x])) in *.
    split. { intros t I. rewrite (tr_trades _ _ _ _ _ TR) in I. apply in_map_iff in I. destruct I as (p & <- & I). rewrite Forall_forall in G. destruct (G p I) as (_ & S & _). cbn [as_trade t_fill]. rewrite S. reflexivity. }
    assert (LP : (List.length ps <= n)%nat) by (eapply Nat.le_trans; [apply pos_at_len|exact LN]).
    pose proof (tr_tally _ _ _ _ _ TR) as Y. fold ps in Y.
    destruct (profits1 log10 k K pos_closed ps (closed1 k) G) as [_ P2]. change (N125b log10) with N126s in P2. fold (profits ps) in P2.
    assert (LQ : (List.length (profits ps) <= n)%nat) by (unfold profits; rewrite map_length; eapply Nat.le_trans; [apply filter_len|exact LP]).
    assert (TT : forall l, (List.length l <= n)%nat -> Forall (room k 2) l -> room k (2 * n) (total l)).
    { intros l Ll Hl. apply (room_le k (2 * List.length l)); [lia|]. apply (total2 log10 k K); [fews|exact Hl]. }
    assert (few2s : few 2) by fews.
    destruct (filter2 k 2 won (profits ps) (fun y => won2 log10 k K 2 y few2s) P2) as [_ W2]. change (N125b log10) with N126s in W2. destruct (filter2 k 2 lost (profits ps) (fun y => lost2 log10 k K 2 y few2s) P2) as [_ L2]. change (N125b log10) with N126s in L2. destruct (abs2 log10 k K 2 _ few2s L2) as [_ Q2]. change (N125b log10) with N126s in Q2.
    assert (SD : forall d, room k (2 * n) (total (side d ps))).
    { intros d. destruct (profits1 log10 k K (fun p => pos_closed p && dir_eqb (pos_dir p) d) ps) as [_ D2]; [intros p; rewrite (closed1 k); reflexivity|exact G|]. apply TT; [|exact D2].
      unfold side. rewrite map_length. eapply Nat.le_trans; [apply filter_len|exact LP]. }
    assert (NE : xs ++ [x] <> []) by apply snoc_ne.
    assert (NT : room k (2 * n) (sm_net (s_metrics s))) by (rewrite (ta_net _ _ Y); apply TT; assumption).
    assert (OP : room k 2 (sm_open (s_metrics s))).
    { rewrite (tr_open _ _ _ _ _ TR NE). fold ps. unfold open_gain. destruct (newest ps) as [p|] eqn:N; [|apply (sc_0 k 2 K few2s)].
      destruct (pos_closed p); [apply (sc_0 k 2 K few2s)|]. apply (gain1 log10 k K); [|apply (quote_room log10 k K), UL]. rewrite Forall_forall in G. apply G. unfold newest in N. exact (nth_error_In _ _ N). }
    assert (EE : room k J3 (sm_equity (s_metrics s))).
    { rewrite (tr_equity _ _ _ _ _ TR). destruct (xs ++ [x]) eqn:EX; [congruence|]. rewrite <- EX in *.
      assert (C1 : sc k (1 + 2 * n) (fadd (sc_capital cfg) (sm_net (s_metrics s))) (fadd (t2 (sc_capital cfg)) (t2 (sm_net (s_metrics s))))) by (apply sc_add; [exact K|fews|split; [apply usable_room, UC|reflexivity]|split; [exact NT|reflexivity]]).
      assert (C2 : sc k (1 + 2 * n + 2) (fadd (fadd (sc_capital cfg) (sm_net (s_metrics s))) (sm_open (s_metrics s))) (fadd (fadd (t2 (sc_capital cfg)) (t2 (sm_net (s_metrics s)))) (t2 (sm_open (s_metrics s))))) by (apply sc_add; [exact K|fews|exact C1|split; [exact OP|reflexivity]]).
      apply (room_le k (1 + 2 * n + 2)); [lia|]. exact (proj1 C2). }
    unfold modest. rewrite (ta_gp _ _ Y), (ta_gl _ _ Y), (ta_long _ _ Y), (ta_short _ _ Y), (ta_n _ _ Y), (ta_w _ _ Y), (ta_l _ _ Y).
    assert (F1 : (List.length (filter won (profits ps)) <= n)%nat) by (eapply Nat.le_trans; [apply filter_len|exact LQ]).
    assert (F2 : (List.length (filter lost (profits ps)) <= n)%nat) by (eapply Nat.le_trans; [apply filter_len|exact LQ]).
    split; [exact EE|]. split; [exact NT|]. split; [exact OP|]. split; [apply TT; assumption|]. split; [apply TT; [rewrite map_length; exact F2|exact Q2]|]. split; [apply SD|]. split; [apply SD|]. auto.
  Qed.
  Lemma room_sc j x : room k j x -> sc k j x (t2 x). Proof. intros H. split; [exact H|reflexivity]. Qed.
  Lemma pnl1 t x r r' : t_fill t = Some (fZ 1) -> (forall e, t_entry_price t = Some e -> room k 1 e) -> room k 1 x ->
    trade_cur_pnl t x = Ok r -> trade_cur_pnl (whole t) (t2 x) = Ok r' -> sc k 2 r r'.
  Proof.
    intros FL E X H H'. unfold trade_cur_pnl in *. cbn [split_trade t_fill t_entry_price t_dir] in H'. rewrite FL in H, H'. cbn [option_map unwrap rbind] in H, H'.
    destruct (t_entry_price t) as [e|]; [|discriminate H]. cbn [option_map unwrap rbind] in H, H'. apply Ok_inj' in H. apply Ok_inj' in H'. subst r r'. unfold trade_pnl.
    assert (D : sc k 2 (fsub x e) (fsub (t2 x) (t2 e))) by (apply (sc_sub k 1 1); [exact K|fews|apply room_sc, X|apply room_sc, E; reflexivity]).
    set (d := fsub x e) in *. set (d' := fsub (t2 x) (t2 e)) in *. clearbody d d'.
    assert (M : forall y : f64, fmul y (fZ 1) = y) by (intros y; exact (f64_mul_1 y)). rewrite !M.
    destruct (dir_eqb (t_dir t) Long); [rewrite !M; exact D|].
    assert (M' : forall y : f64, fmul y (fZ (-1)) = fneg y) by (intros y; exact (f64_mul_m1 y)). rewrite !M'. apply sc_neg; [exact K|fews|exact D].
  Qed.
  Definition eqs (e e' : equity f64) : Prop :=
    (sc k J3 (e_equity e) (e_equity e') /\ sc k J3 (e_equity_min e) (e_equity_min e') /\ sc k J3 (e_equity_max e) (e_equity_max e')) /\
    (sc k A1 (e_net e) (e_net e') /\ sc k A1 (e_net_min e) (e_net_min e') /\ sc k A1 (e_net_max e) (e_net_max e')) /\
    (sc k 2 (e_bop_min e) (e_bop_min e') /\ sc k 2 (e_bop_max e) (e_bop_max e')) /\ (sc k J3 (e_bar_min e) (e_bar_min e') /\ sc k J3 (e_bar_max e) (e_bar_max e')).
  Lemma eqs_new cap : usable k cap -> eqs (equity_new cap) (equity_new (t2 cap)).
  Proof.
    intros U. apply usable_room in U. assert (H : forall j, (1 <= j)%nat -> sc k j cap (t2 cap)) by (intros j L; split; [apply (room_le k 1); [exact L|exact U]|reflexivity]).
    assert (Z : sc k 2 (fZ (F := f64) 0) (fZ 0)) by (apply (sc_0 k 2 K); fews). unfold eqs, equity_new. cbn [e_equity e_equity_min e_equity_max e_net e_net_min e_net_max e_bop_min e_bop_max e_bar_min e_bar_max].
    split; [split; [apply H; lia|split; apply H; lia]|]. split; [split; [apply H; lia|split; apply H; lia]|]. split; [split; exact Z|]. split; apply H; lia.
  Qed.
  Lemma equity1 cfg c e e' s s' f f' : usable k (sc_capital cfg) -> all_usable k (p_high (c_data c)) -> all_usable k (p_low (c_data c)) -> (forall t x, In t (s_trades s) -> t_entry_price t = Some x -> room k 1 x) ->
    (forall t, In t (s_trades s) -> t_fill t = Some (fZ 1)) -> (s_config s = cfg /\ s_config s' = with_capital cfg (t2 (sc_capital cfg))) -> s_trades s' = map whole (s_trades s) -> s_metrics s' = split_metrics k (s_metrics s) -> s_on_exit s' = option_map whole (s_on_exit s) ->
    modest (s_metrics s) -> eqs e e' -> equity_step c e s = Ok (f, tt) -> equity_step (split_ctx k c) e' s' = Ok (f', tt) -> eqs f f'.
  Proof.
    intros UC UH UL E FL [C C'] T M X MD ((Q1 & Q2 & Q3) & (Q4 & Q5 & Q6) & (Q7 & Q8) & (Q9 & Q10)) H H'. unfold equity_step in H, H'. rewrite C in H. rewrite C', T, M, X, split_last_map' in H'. cbn [with_capital sc_capital split_metrics sm_net sm_equity] in H'.
    destruct MD as (ME & MN & _).
    assert (NETS : forall a b d a' b' d', (match s_on_exit s with Some _ => let net := fadd (sc_capital cfg) (sm_net (s_metrics s)) in (net, fmin (e_net_min e) net, fmax (e_net_max e) net) | None => (e_net e, e_net_min e, e_net_max e) end) = (a, b, d) ->
      (match option_map whole (s_on_exit s) with Some _ => let net := fadd (t2 (sc_capital cfg)) (t2 (sm_net (s_metrics s))) in (net, fmin (e_net_min e') net, fmax (e_net_max e') net) | None => (e_net e', e_net_min e', e_net_max e') end) = (a', b', d') ->
      sc k A1 a a' /\ sc k A1 b b' /\ sc k A1 d d').
    { intros a b d a' b' d'. assert (NN : sc k A1 (fadd (sc_capital cfg) (sm_net (s_metrics s))) (fadd (t2 (sc_capital cfg)) (t2 (sm_net (s_metrics s))))).
      { apply (sc_le k (1 + 2 * n)); [lia|]. apply sc_add; [exact K|fews|apply room_sc, usable_room, UC|apply room_sc, MN]. }
      destruct (s_on_exit s); cbn [option_map]; intros V V'; [|injection V as <- <- <-; injection V' as <- <- <-; auto]. cbn zeta in V, V'. injection V as <- <- <-. injection V' as <- <- <-.
      split; [exact NN|]. split; [apply (sc_min log10 k K)|apply (sc_max log10 k K)]; (fews || assumption). }
    destruct (match s_on_exit s with Some _ => _ | None => _ end) as [[a b] d]. destruct (match option_map whole (s_on_exit s) with Some _ => _ | None => _ end) as [[a' b'] d'].
    destruct (NETS _ _ _ _ _ _ eq_refl eq_refl) as (NA & NB & ND). clear NETS.
    assert (FIN : forall u v u' v', sc k 2 u u' -> sc k 2 v v' ->
      eqs (mkEquity (sm_equity (s_metrics s)) (fmin (e_equity_min e) (sm_equity (s_metrics s))) (fmax (e_equity_max e) (sm_equity (s_metrics s))) a b d u v (fadd a u) (fadd a v))
          (mkEquity (t2 (sm_equity (s_metrics s))) (fmin (e_equity_min e') (t2 (sm_equity (s_metrics s)))) (fmax (e_equity_max e') (t2 (sm_equity (s_metrics s)))) a' b' d' u' v' (fadd a' u') (fadd a' v'))).
    { intros u v u' v' HU HV. unfold eqs. cbn [e_equity e_equity_min e_equity_max e_net e_net_min e_net_max e_bop_min e_bop_max e_bar_min e_bar_max]. pose proof (room_sc _ _ ME) as SE.
      split; [split; [exact SE|split; [apply (sc_min log10 k K)|apply (sc_max log10 k K)]; (fews || assumption)]|]. split; [auto|]. split; [auto|].
      split; (apply (sc_le k (A1 + 2)); [lia|]; apply sc_add; [exact K|fews|exact NA|assumption]). }
    destruct (split_last (s_trades s)) as [[older last]|] eqn:SL; cbn [option_map] in H'.
    2:{ cbn [rbind] in H, H'. apply Ok_inj' in H. apply Ok_inj' in H'. apply (f_equal fst) in H. apply (f_equal fst) in H'. cbn [fst] in H, H'. subst f f'. apply FIN; assumption. }
    apply split_last_in in SL. change (t_closed (whole last)) with (t_closed last) in H'. destruct (t_closed last).
    { cbn [rbind] in H, H'. apply Ok_inj' in H. apply Ok_inj' in H'. apply (f_equal fst) in H. apply (f_equal fst) in H'. cbn [fst] in H, H'. subst f f'. apply FIN; assumption. }
    unfold bar_low, bar_high in H, H'. cbn [split_ctx c_data c_index split_provider p_low p_high] in H'. rewrite !vget2 in H'.
    destruct (vget (p_low (c_data c)) (c_index c)) as [[lo|]|] eqn:VL; try discriminate H. apply (vget_room k) in VL; [|exact UL]. cbn [rmap rbind option_map unwrap] in H, H'.
    destruct (vget (p_high (c_data c)) (c_index c)) as [[hi|]|] eqn:VH; try discriminate H. apply (vget_room k) in VH; [|exact UH]. cbn [rmap rbind option_map unwrap] in H, H'.
    change (t_dir (whole last)) with (t_dir last) in H'.
    assert (PN : forall y r r', room k 1 y -> trade_cur_pnl last y = Ok r -> trade_cur_pnl (whole last) (t2 y) = Ok r' -> sc k 2 r r') by (intros y r r' Y; apply pnl1; [apply FL, SL|intros z; apply E, SL|exact Y]).
    destruct (t_dir last).
    - destruct (trade_cur_pnl last lo) as [r1|] eqn:P1; [|discriminate H]. destruct (trade_cur_pnl (whole last) (t2 lo)) as [r1'|] eqn:P1'; [|discriminate H']. cbn [rbind] in H, H'.
      destruct (trade_cur_pnl last hi) as [r2|] eqn:P2; [|discriminate H]. destruct (trade_cur_pnl (whole last) (t2 hi)) as [r2'|] eqn:P2'; [|discriminate H']. cbn [rbind] in H, H'.
      apply Ok_inj' in H. apply Ok_inj' in H'. apply (f_equal fst) in H. apply (f_equal fst) in H'. cbn [fst] in H, H'. subst f f'. apply FIN; [exact (PN _ _ _ VL P1 P1')|exact (PN _ _ _ VH P2 P2')].
    - destruct (trade_cur_pnl last hi) as [r1|] eqn:P1; [|discriminate H]. destruct (trade_cur_pnl (whole last) (t2 hi)) as [r1'|] eqn:P1'; [|discriminate H']. cbn [rbind] in H, H'.
      destruct (trade_cur_pnl last lo) as [r2|] eqn:P2; [|discriminate H]. destruct (trade_cur_pnl (whole last) (t2 lo)) as [r2'|] eqn:P2'; [|discriminate H']. cbn [rbind] in H, H'.
      apply Ok_inj' in H. apply Ok_inj' in H'. apply (f_equal fst) in H. apply (f_equal fst) in H'. cbn [fst] in H, H'. subst f f'. apply FIN; [exact (PN _ _ _ VH P1 P1')|exact (PN _ _ _ VL P2 P2')].
  Qed.

  (** ** The reports *)
  (** Amounts of money, figures without a unit, and counts of a TradingView
      report.  (The Sharpe and Sortino ratios subtract a risk-free rate in
      money and are not in any of the lists.) *)
  Definition money (d : tvdata f64) : list f64 :=
    [tv_net_profit d; tv_gross_profit d; tv_gross_loss d; tv_max_run_up d; tv_max_drawdown d; tv_open_pl d; tv_avg_trade d; tv_avg_winning d; tv_avg_losing d].
  Definition unitless (d : tvdata f64) : list f64 :=
    [tv_net_profit_percent d; tv_gross_profit_percent d; tv_gross_loss_percent d; tv_max_run_up_percent d; tv_max_drawdown_percent d; tv_profit_factor d; tv_percent_profitable d; tv_ratio d].
  Definition split_report (d d' : tvdata f64) : Prop :=
    money d' = map t2 (money d) /\ unitless d' = unitless d /\ (tv_closed d' = tv_closed d /\ tv_winning d' = tv_winning d /\ tv_losing d' = tv_losing d) /\
    tv_net_equity_history d' = map t2 (tv_net_equity_history d) /\ tv_max_drawdown_history d' = map t2 (tv_max_drawdown_history d) /\ tv_equity_history d' = map t2 (tv_equity_history d).

  Lemma zero2 : t2 (fZ (F := f64) 0) = fZ 0.
  Proof. symmetry. apply (sc_0 k 1 K). fews. Qed.
  Lemma eq02 j x x' : few j -> sc k j x x' -> feqb x' (fZ 0) = feqb x (fZ 0).
  Proof. intros J H. exact (sc_eq0 log10 k K j x x' J H). Qed.
  Lemma average2 x m : (m <= n)%nat -> room k (2 * n) x -> ex k (unwrap_or0 (avg_trade x m)) (unwrap_or0 (avg_trade (t2 x) m)) /\ unwrap_or0 (avg_trade (t2 x) m) = t2 (unwrap_or0 (avg_trade x m)).
  Proof.
    intros L H. unfold avg_trade. destruct (Nat.eqb_spec m 0) as [->|M0]; cbn [unwrap_or0].
    - split; [apply (sc_ex k 1); [exact K|fews|apply (sc_0 k 1 K); fews]|symmetry; exact zero2].
    - assert (FM : few m) by fews. destruct (fnat_64 log10 m FM) as [Fm Vm]. assert (ZM : (0 < Z.of_nat m <= 2 ^ 53)%Z) by (unfold few in FM; lia). assert (F2 : few (2 * n)) by fews.
      split; [exact (sc_divz_ex k (2 * n) (Z.of_nat m) (fnat m) x (t2 x) K F2 Fm Vm ZM (room_sc _ _ H))|exact (sc_divz k (2 * n) (Z.of_nat m) (fnat m) x (t2 x) K F2 Fm Vm ZM (room_sc _ _ H))].
  Qed.
  Lemma factor2 a b : room k (2 * n) a -> room k (2 * n) b -> profit_factor (t2 a) (t2 b) = profit_factor a b.
  Proof.
    intros A B. assert (F2 : few (2 * n)) by fews. unfold profit_factor. rewrite (eq02 (2 * n) b (t2 b) F2 (room_sc _ _ B)). destruct (b ==? fZ 0)%num; [reflexivity|]. f_equal.
    exact (sc_ratio k _ _ _ _ _ _ K F2 F2 (room_sc _ _ A) (room_sc _ _ B)).
  Qed.
  Lemma ex_eq0 (x x' : f64) : ex k x x' -> Beqb x' (f64_ofZ 0) = Beqb x (f64_ofZ 0).
  Proof.
    intros ([F F'] & V & _). rewrite !Beqb_correct by (assumption || reflexivity). rewrite V. change (B2R (f64_ofZ 0)) with 0. pose proof (bpow_gt_0 radix2 k) as P.
    destruct (Req_bool_spec (B2R x) 0) as [E|E]; [rewrite E, Rmult_0_l; apply Req_bool_true; reflexivity|]. apply Req_bool_false. intros Q. apply Rmult_integral in Q. lra.
  Qed.
  Definition tvs (t t' : tvmetrics f64) : Prop :=
    eqs (tv_eqm t) (tv_eqm t') /\ sc k (J3 + A1) (tv_max_drawdown (tv_data t)) (tv_max_drawdown (tv_data t')) /\ sc k (J3 + A1) (tv_max_run_up (tv_data t)) (tv_max_run_up (tv_data t')) /\ split_report (tv_data t) (tv_data t').

  (** One share at a time, prices and capital multiplied by [2^k]: in the
      TradingView report every amount is multiplied by [2^k], every other
      figure but the Sharpe and Sortino ratios stays the same, bit for bit. *)
  Theorem C126_tradingview_shares (cfg : sconfig f64) rfr c sigs os os' : sc_with_equity cfg = false -> usable k (sc_capital cfg) -> (List.length sigs <= n)%nat ->
    (forall col, In col [p_open (c_data c); p_high (c_data c); p_low (c_data c); p_close (c_data c)] -> all_usable k col) ->
    let cfg' := with_capital cfg (t2 (sc_capital cfg)) in
    observed tv_step cfg (tv_new (strategy_new cfg) rfr) c sigs os -> observed tv_step cfg' (tv_new (strategy_new cfg') rfr) (split_ctx k c) sigs os' ->
    Forall2 (fun o o' => split_report (tv_data (snd o)) (tv_data (snd o'))) os os'.
  Proof.
    intros WE UCA LS U cfg' O O'. assert (UO : all_usable k (p_open (c_data c))) by (apply U; cbn; auto). assert (UH : all_usable k (p_high (c_data c))) by (apply U; cbn; auto). assert (UL : all_usable k (p_low (c_data c))) by (apply U; cbn; auto). assert (UC : all_usable k (p_close (c_data c))) by (apply U; cbn; auto 6).
    assert (FJ : few J3) by fews. assert (FA : few A1) by fews. assert (F2 : few (2 * n)) by fews. assert (FJA : few (J3 + A1)) by fews.
    enough (H : Forall2 (fun o o' => tvs (snd o) (snd o')) os os') by (clear - H; induction H as [|? ? ? ? (_ & _ & _ & E) H IH]; [constructor|constructor; [exact E|exact IH]]).
    apply (metered_sim tv_step cfg cfg' (tv_new (strategy_new cfg) rfr) (tv_new (strategy_new cfg') rfr) c (split_ctx k c) tvs (fun _ => True) sigs); [| |exact O|exact O'|apply Forall_forall; auto].
    { split; [apply eqs_new, UCA|]. split; [apply (sc_0 k _ K FJA)|]. split; [apply (sc_0 k _ K FJA)|]. unfold split_report, money, unitless, tv_new, tvdata_default. cbn [tv_data tv_net_profit tv_net_profit_percent tv_gross_profit tv_gross_profit_percent tv_gross_loss tv_gross_loss_percent tv_max_run_up tv_max_run_up_percent tv_max_drawdown tv_max_drawdown_percent tv_profit_factor tv_open_pl tv_closed tv_winning tv_losing tv_percent_profitable tv_avg_trade tv_avg_winning tv_avg_losing tv_ratio tv_net_equity_history tv_max_drawdown_history tv_equity_history map].
      rewrite zero2. split; [reflexivity|]. split; [reflexivity|]. split; [auto|]. split; [reflexivity|]. split; reflexivity. }
    intros xs x s s' m m' r r' LX _ A A' (QE & QD & QU & (_ & _ & _ & QH1 & QH2 & QH3)) E E'.
    destruct (states1 cfg c xs x s s' WE UCA UO UC ltac:(lia) A A') as (C & T & M & X & FL & MD).
    unfold tv_step in E, E'. destruct (equity_step (ctx_at c (List.length xs)) (tv_eqm m) s) as [[f []]|] eqn:ES; [|discriminate E]. destruct (equity_step (ctx_at (split_ctx k c) (List.length xs)) (tv_eqm m') s') as [[f' []]|] eqn:ES'; [|discriminate E']. cbn [rbind] in E, E'.
    assert (EF : eqs f f').
    { change (ctx_at (split_ctx k c) (List.length xs)) with (split_ctx k (ctx_at c (List.length xs))) in ES'. refine (equity1 cfg (ctx_at c (List.length xs)) (tv_eqm m) (tv_eqm m') s s' f f' UCA UH UL _ FL C T M X MD QE ES ES').
      intros t y I Ey. exact (entry_room log10 k K cfg c _ s t y UO UC A I Ey). }
    destruct (sstdev_next (tv_neg_stdev m) _) as [a1 a2] in E. destruct (sstdev_next (tv_neg_stdev m') _) as [a3 a4] in E'.
    apply Ok_inj' in E. apply Ok_inj' in E'. apply (f_equal fst) in E. apply (f_equal fst) in E'. cbn [fst] in E, E'. subst r r'.
    destruct C as [C C']. rewrite C, C', M, X. destruct MD as (R1 & R2 & R3 & R4 & R5 & R6 & R7 & R8 & R9 & R10). pose proof EF as ((G1 & G2 & G3) & (G4 & G5 & G6) & _ & (G9 & G10)).
    cbn [with_capital sc_capital split_metrics sm_equity sm_net sm_open sm_gross_profit sm_gross_loss sm_closed sm_winning sm_losing sm_long_net sm_short_net].
    assert (D1 : sc k (J3 + A1) (fmax (fsub (e_net_max f) (e_bar_min f)) (tv_max_drawdown (tv_data m))) (fmax (fsub (e_net_max f') (e_bar_min f')) (tv_max_drawdown (tv_data m')))).
    { apply (sc_max log10 k K); [exact FJA| |exact QD]. apply (sc_le k (A1 + J3)); [lia|]. apply (sc_sub k A1 J3); [exact K|fews|exact G6|exact G9]. }
    assert (D2 : sc k (J3 + A1) (fmax (fsub (e_bar_max f) (e_net_min f)) (tv_max_run_up (tv_data m))) (fmax (fsub (e_bar_max f') (e_net_min f')) (tv_max_run_up (tv_data m')))).
    { apply (sc_max log10 k K); [exact FJA| |exact QU]. apply (sc_sub k J3 A1); [exact K|fews|exact G10|exact G5]. }
    assert (CP : sc k 1 (sc_capital cfg) (t2 (sc_capital cfg))) by (apply room_sc, usable_room, UCA). assert (F1 : few 1) by fews.
    assert (P1 : forall y, room k (2 * n) y -> fdiv (t2 y) (t2 (sc_capital cfg)) = fdiv y (sc_capital cfg)) by (intros y Y; exact (sc_ratio k _ _ _ _ _ _ K F2 F1 (room_sc _ _ Y) CP)).
    pose proof (average2 _ _ R9 R4) as [AW1 AW2]. pose proof (average2 _ _ R10 R5) as [AL1 AL2]. pose proof (average2 _ _ R8 R2) as [_ AT2].
    split; [exact EF|]. split; [exact D1|]. split; [exact D2|].
    unfold split_report, money, unitless. cbn [tv_data tv_net_profit tv_net_profit_percent tv_gross_profit tv_gross_profit_percent tv_gross_loss tv_gross_loss_percent tv_max_run_up tv_max_run_up_percent tv_max_drawdown tv_max_drawdown_percent tv_profit_factor tv_open_pl tv_closed tv_winning tv_losing tv_percent_profitable tv_avg_trade tv_avg_winning tv_avg_losing tv_ratio tv_net_equity_history tv_max_drawdown_history tv_equity_history map].
    unfold net_profit_percent, gross_profit_percent, gross_loss_percent, max_run_up_percent, max_drawdown_percent, avg_win_loss_ratio.
    change (@avg_winning_trade f64 _) with (@avg_trade f64 _). change (@avg_losing_trade f64 _) with (@avg_trade f64 _).
    split; [|split; [|split; [auto|]]].
    - rewrite (proj2 D1), (proj2 D2), AW2, AL2, AT2. reflexivity.
    - rewrite !P1 by assumption. rewrite factor2 by assumption.
      assert (Z1 : fdiv (fmax (fsub (e_bar_max f') (e_net_min f')) (tv_max_run_up (tv_data m'))) (e_bar_max f') = fdiv (fmax (fsub (e_bar_max f) (e_net_min f)) (tv_max_run_up (tv_data m))) (e_bar_max f)) by exact (sc_ratio k _ _ _ _ _ _ K FJA FJ D2 G10).
      assert (Z2 : fdiv (fmax (fsub (e_net_max f') (e_bar_min f')) (tv_max_drawdown (tv_data m'))) (e_net_max f') = fdiv (fmax (fsub (e_net_max f) (e_bar_min f)) (tv_max_drawdown (tv_data m))) (e_net_max f)) by exact (sc_ratio k _ _ _ _ _ _ K FJA FA D1 G6).
      assert (Z3 : feqb (unwrap_or0 (avg_trade (t2 (sm_gross_loss (s_metrics s))) (sm_losing (s_metrics s)))) (fZ 0) = feqb (unwrap_or0 (avg_trade (sm_gross_loss (s_metrics s)) (sm_losing (s_metrics s)))) (fZ 0)) by exact (ex_eq0 _ _ AL1).
      assert (Z4 : fdiv (unwrap_or0 (avg_trade (t2 (sm_gross_profit (s_metrics s))) (sm_winning (s_metrics s)))) (unwrap_or0 (avg_trade (t2 (sm_gross_loss (s_metrics s))) (sm_losing (s_metrics s)))) =
        fdiv (unwrap_or0 (avg_trade (sm_gross_profit (s_metrics s)) (sm_winning (s_metrics s)))) (unwrap_or0 (avg_trade (sm_gross_loss (s_metrics s)) (sm_losing (s_metrics s))))) by exact (ex_ratio k _ _ _ _ AW1 AL1).
      rewrite Z1, Z2, Z3, Z4. reflexivity.
    - assert (IS : is_some (option_map whole (s_on_exit s)) = is_some (s_on_exit s)) by (destruct (s_on_exit s); reflexivity). rewrite IS.
      rewrite QH1, QH2, QH3, (proj2 D1), (proj2 G4), (proj2 G1). destruct (is_some (s_on_exit s)); rewrite !map_app; auto.
  Qed.

  (** The same with other amounts of money. *)
  Definition with_money (b : cobra f64) (cd pe : f64) (em : equity f64) : cobra f64 :=
    mkCobra (cb_estimated b) (cb_start_year b) (cb_eq_max_dd b) (cb_intra_dd b) (cb_sortino b) (cb_sharpe b) (cb_profit_factor b) (cb_profitable b) (cb_trades b) (cb_omega b) (cb_ls_ratio b)
      cd (cb_annualized b) (cb_mean b) (cb_stdev b) (cb_pos_sum b) (cb_neg_stdev b) (cb_neg_sum b) pe (cb_rfr b) em.
  Definition cbs (b b' : cobra f64) : Prop :=
    exists cd pe em, b' = with_money b cd pe em /\ sc k (J3 + A1) (cb_cur_dd b) cd /\ sc k J3 (cb_prev_equity b) pe /\ eqs (cb_eqm b) em.
  (** All the figures of a Cobra report. *)
  Definition cobra_figures (b : cobra f64) : list f64 * nat :=
    ([cb_eq_max_dd b; cb_intra_dd b; cb_sortino b; cb_sharpe b; cb_profit_factor b; cb_profitable b; cb_omega b; cb_ls_ratio b], cb_trades b).
  Lemma ls2 a b : room k (2 * n) a -> room k (2 * n) b -> long_net_profit_ratio (t2 a) (t2 b) = long_net_profit_ratio a b.
  Proof.
    intros A B. assert (F2 : few (2 * n)) by fews. unfold long_net_profit_ratio. rewrite (eq02 (2 * n) b (t2 b) F2 (room_sc _ _ B)). destruct (b ==? fZ 0)%num; [reflexivity|]. do 2 f_equal.
    exact (sc_ratio k _ _ _ _ _ _ K F2 F2 (room_sc _ _ A) (room_sc _ _ B)).
  Qed.
  Lemma exit1 b b' s s' r r' : cbs b b' -> modest (s_metrics s) -> s_metrics s' = split_metrics k (s_metrics s) -> s_on_exit s' = option_map whole (s_on_exit s) ->
    (forall t x, s_on_exit s = Some t -> t_entry_price t = Some x -> room k 1 x) -> cobra_on_exit b s = Ok r -> cobra_on_exit b' s' = Ok r' -> cbs r r'.
  Proof.
    intros (cd & pe & em & -> & H1 & H2 & H3) (R1 & R2 & R3 & R4 & R5 & R6 & R7 & _) M X EP E E'. unfold cobra_on_exit in E, E'. rewrite X in E'. destruct (s_on_exit s) as [t|]; cbn [option_map] in E'.
    - cbn [split_trade t_entry_price] in E'. destruct (t_entry_price t) as [p|] eqn:TP; [|discriminate E]. cbn [option_map unwrap rbind] in E, E'. rewrite M in E'. apply Ok_inj' in E. apply Ok_inj' in E'. subst r r'.
      cbn [split_metrics sm_gross_profit sm_gross_loss sm_winning sm_closed sm_long_net sm_short_net with_money cb_estimated cb_start_year cb_eq_max_dd cb_intra_dd cb_sortino cb_sharpe cb_omega cb_cur_dd cb_annualized cb_mean cb_stdev cb_pos_sum cb_neg_stdev cb_neg_sum cb_prev_equity cb_rfr cb_eqm].
      rewrite factor2, ls2 by assumption. assert (FJA : few (J3 + A1)) by fews. assert (F1 : few 1) by fews.
      assert (Z : fdiv cd (t2 p) = fdiv (cb_cur_dd b) p) by exact (sc_ratio k _ _ _ _ _ _ K FJA F1 H1 (room_sc _ _ (EP t p eq_refl TP))). rewrite Z.
      exists (fZ 0), pe, em. split; [reflexivity|]. cbn [cb_cur_dd cb_prev_equity cb_eqm]. split; [apply (sc_0 k _ K FJA)|]. auto.
    - apply Ok_inj' in E. apply Ok_inj' in E'. subst. exists cd, pe, em. auto.
  Qed.
  (** One share at a time, prices and capital multiplied by [2^k]: the same
      Cobra report, bit for bit, at every bar. *)
  Theorem C126_cobra_shares (cfg : sconfig f64) est start c sigs os os' : sc_with_equity cfg = false -> usable k (sc_capital cfg) -> (List.length sigs <= n)%nat ->
    (forall col, In col [p_open (c_data c); p_high (c_data c); p_low (c_data c); p_close (c_data c)] -> all_usable k col) ->
    let cfg' := with_capital cfg (t2 (sc_capital cfg)) in
    observed cobra_step cfg (cobra_new (strategy_new cfg) est start) c sigs os -> observed cobra_step cfg' (cobra_new (strategy_new cfg') est start) (split_ctx k c) sigs os' ->
    map (fun o => cobra_figures (snd o)) os' = map (fun o => cobra_figures (snd o)) os.
  Proof.
    intros WE UCA LS U cfg' O O'. assert (UO : all_usable k (p_open (c_data c))) by (apply U; cbn; auto). assert (UH : all_usable k (p_high (c_data c))) by (apply U; cbn; auto). assert (UL : all_usable k (p_low (c_data c))) by (apply U; cbn; auto). assert (UC : all_usable k (p_close (c_data c))) by (apply U; cbn; auto 6).
    assert (FJ : few J3) by fews. assert (FA : few A1) by fews. assert (FJA : few (J3 + A1)) by fews.
    enough (H : Forall2 (fun o o' => cbs (snd o) (snd o')) os os') by (clear - H; induction H as [|? ? ? ? (cd & pe & em & E & _) H IH]; [reflexivity|]; cbn [map]; rewrite E; f_equal; exact IH).
    apply (metered_sim cobra_step cfg cfg' (cobra_new (strategy_new cfg) est start) (cobra_new (strategy_new cfg') est start) c (split_ctx k c) cbs (fun _ => True) sigs); [| |exact O|exact O'|apply Forall_forall; auto].
    { exists (fZ 0), (t2 (sc_capital cfg)), (equity_new (t2 (sc_capital cfg))). split; [reflexivity|]. split; [apply (sc_0 k _ K FJA)|]. split; [|apply eqs_new, UCA]. apply (sc_le k 1); [lia|]. apply room_sc, usable_room, UCA. }
    intros xs x s s' m m' r r' LX _ A A' QM E E'.
    destruct (states1 cfg c xs x s s' WE UCA UO UC ltac:(lia) A A') as (C & T & M & X & FL & MD).
    assert (EN : forall t y, In t (s_trades s) -> t_entry_price t = Some y -> room k 1 y) by (intros t y I Ey; exact (entry_room log10 k K cfg c _ s t y UO UC A I Ey)).
    unfold cobra_step in E, E'. destruct (cobra_on_exit m s) as [b1|] eqn:X1; [|discriminate E]. destruct (cobra_on_exit m' s') as [b1'|] eqn:X2; [|discriminate E'].
    assert (Q1 : cbs b1 b1').
    { refine (exit1 m m' s s' b1 b1' QM MD M X _ X1 X2). intros t y XT Ey. apply (EN t y); [|exact Ey]. destruct (C34_events _ _ _ _ _ A t) as [H _]. cbn zeta in H. apply H in XT. apply XT. }
    destruct Q1 as (cd & pe & em & -> & H1 & H2 & H3). cbn [rbind] in E, E'. change (cb_eqm (with_money b1 cd pe em)) with em in E'.
    destruct (equity_step (ctx_at c (List.length xs)) (cb_eqm b1) s) as [[f []]|] eqn:ES; [|discriminate E]. destruct (equity_step (ctx_at (split_ctx k c) (List.length xs)) em s') as [[f' []]|] eqn:ES'; [|discriminate E']. cbn [rbind] in E, E'.
    assert (EF : eqs f f').
    { change (ctx_at (split_ctx k c) (List.length xs)) with (split_ctx k (ctx_at c (List.length xs))) in ES'. exact (equity1 cfg (ctx_at c (List.length xs)) (cb_eqm b1) em s s' f f' UCA UH UL EN FL C T M X MD H3 ES ES'). }
    pose proof EF as ((G1 & G2 & G3) & (G4 & G5 & G6) & _ & (G9 & G10)).
    assert (Z1 : fdiv (e_equity f') (e_equity_max f') = fdiv (e_equity f) (e_equity_max f)) by exact (sc_ratio k _ _ _ _ _ _ K FJ FJ G1 G3).
    assert (Z2 : sc k (J3 + A1) (fmax (fsub (e_net f) (e_bar_min f)) (cb_cur_dd b1)) (fmax (fsub (e_net f') (e_bar_min f')) cd)).
    { apply (sc_max log10 k K); [exact FJA| |exact H1]. apply (sc_le k (A1 + J3)); [lia|]. apply (sc_sub k A1 J3); [exact K|fews|exact G4|exact G9]. }
    assert (Z3 : returns_of (e_equity f') pe = returns_of (e_equity f) (cb_prev_equity b1)).
    { unfold returns_of. rewrite (eq02 J3 _ _ FJ H2), (eq02 J3 _ _ FJ G1). assert (Z : fdiv (e_equity f') pe = fdiv (e_equity f) (cb_prev_equity b1)) by exact (sc_ratio k _ _ _ _ _ _ K FJ FJ G1 H2). rewrite Z. reflexivity. }
    change (bar_year (ctx_at (split_ctx k c) (List.length xs))) with (bar_year (ctx_at c (List.length xs))) in E'. cbn [with_money cb_estimated cb_start_year cb_eq_max_dd cb_sortino cb_sharpe cb_profit_factor cb_profitable cb_trades cb_omega cb_ls_ratio cb_cur_dd cb_annualized cb_mean cb_stdev cb_pos_sum cb_neg_stdev cb_neg_sum cb_prev_equity cb_rfr cb_intra_dd] in E'.
    rewrite Z1, Z3 in E'. destruct (match cb_start_year b1 with Some y => _ | None => _ end) as [skip|]; [|discriminate E]. cbn [rbind] in E, E'. destruct skip.
    - apply Ok_inj' in E. apply Ok_inj' in E'. apply (f_equal fst) in E. apply (f_equal fst) in E'. cbn [fst] in E, E'. subst r r'. do 3 eexists. split; [unfold with_money; reflexivity|]. split; [exact Z2|]. split; [exact G1|exact EF].
    - destruct (mean_next _ _) as [a1 a2]. destruct (sstdev_next (cb_stdev b1) _) as [a3 a4]. destruct (sstdev_next (cb_neg_stdev b1) _) as [a5 a6].
      apply Ok_inj' in E. apply Ok_inj' in E'. apply (f_equal fst) in E. apply (f_equal fst) in E'. cbn [fst] in E, E'. subst r r'. do 3 eexists. split; [unfold with_money; reflexivity|]. split; [exact Z2|]. split; [exact G1|exact EF].
  Qed.
End OneShare.

(** ** A concrete case: the four decimal bars of [ctx125], an 8-for-1 split. *)
Section SplitReports.
  Variable log10 : f64 -> f64.
  #[local] Instance N126e : Num f64 := IEEE log10.
  #[local] Instance O126e : OrdNum f64 := IEEEOrd log10.
  Definition sized_well (o : strategy f64 * tvmetrics f64) : bool :=
    forallb (fun t : trade f64 => match t_fill t with Some f => is_finite f && Bleb (f64_ofZ 1) (Babs f) | None => true end) (s_trades (fst o)).
  Example C126_ex : (forall col, In col [p_open (c_data ctx125); p_high (c_data ctx125); p_low (c_data ctx125); p_close (c_data ctx125)] -> all_usable 3 col) /\ usable 3 (sc_capital (cfg125 false)) /\ few (4 * 4 + 8) /\
    complete ctx125 4 /\ complete (split_ctx 3 ctx125) 4 /\
    exists os, observed tv_step (cfg125 true) (tv_new (strategy_new (cfg125 true)) tv_default_rfr) ctx125 (sig125 ++ [None]) os /\ (forall o t f, In o os -> In t (s_trades (fst o)) -> t_fill t = Some f -> divisible 3 f) /\
      map (fun o => List.length (s_trades (fst o))) os = [0; 1; 2; 2]%nat.
  Proof.
    split; [|split; [apply usable_test; vm_compute; reflexivity|split; [unfold few; cbn; lia|split; [apply completeb_ok; vm_compute; reflexivity|split; [apply completeb_ok; vm_compute; reflexivity|]]]]].
    - intros col I. repeat (destruct I as [<-|I]; [apply all_usable_test; vm_compute; reflexivity|]). contradiction.
    - unfold observed. assert (X : match run (metered tv_step) ctx125 (strategy_new (cfg125 true), tv_new (strategy_new (cfg125 true)) tv_default_rfr) (sig125 ++ [None]) with
        | Ok os => (forallb sized_well os, map (fun o => List.length (s_trades (fst o))) os) | Panic => (false, []) end = (true, [0; 1; 2; 2]%nat)) by (vm_compute; reflexivity).
      destruct (run (metered tv_step) ctx125 _ _) as [os|]; [|discriminate X]. exists os. split; [reflexivity|]. injection X as X1 X2. split; [|exact X2].
      intros o t f I J E. rewrite forallb_forall in X1. specialize (X1 o I). unfold sized_well in X1. rewrite forallb_forall in X1. specialize (X1 t J). rewrite E in X1. apply divisible_test, X1.
  Qed.
End SplitReports.
