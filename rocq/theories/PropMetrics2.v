(** * PropMetrics2: C89 (backtests do not panic), C90 (intra-trade drawdown),
    C91 (the equity band while flat), C92 (estimated ratios), and further
    theorems of C39, C40 and C72. *)
From Verif Require Export PropMetrics PropExtra PropBacktest.

(** ** C89 *)
Section C89.
  Context {F : Type} {NF : Num F}.
  (** For [n] bars from the context's current one on, every price is there. *)
  Definition complete (c : ctx F) (n : nat) : Prop :=
    forall k, (k < n)%nat -> forall col, In col [p_open (c_data c); p_high (c_data c); p_low (c_data c); p_close (c_data c)] ->
      exists x, nth_error col (c_index c + k) = Some (Some x).
  (** ... and a timestamp, in nanoseconds after 1970 (up to the year 33658). *)
  Definition dated (c : ctx F) (n : nat) : Prop :=
    forall k, (k < n)%nat -> exists t,
      nth_error (p_time (c_data c)) (c_index c + k) = Some (Some t) /\ (0 <= t < 10 ^ 21)%Z.

  Lemma complete_priced c n : complete c n -> priced c n.
  Proof. intros H k K. split; apply (H k K); cbn; tauto. Qed.
  Lemma bar_year_total c n k : dated c n -> (k < n)%nat -> exists y, bar_year (ctx_at c k) = Ok y.
  Proof.
    intros D K. destruct (D k K) as (t & T & B). unfold bar_year, bar_time, vget.
    rewrite ctx_at_data, ctx_at_index, T. cbn [rbind unwrap].
    assert (M : (0 <= t / 1000000 < 10 ^ 15)%Z).
    { split; [apply Z.div_pos; lia|]. apply Z.div_lt_upper_bound; [lia|]. eapply Z.lt_le_trans; [apply B|]. apply Z.leb_le. reflexivity. }
    assert (W : wrap64 (t / 1000000) = (t / 1000000)%Z).
    { assert (E1 : (10 ^ 15 <= 2 ^ 63)%Z) by (apply Z.leb_le; reflexivity).
      assert (E2 : (2 ^ 63 <= 2 ^ 64)%Z) by (apply Z.leb_le; reflexivity).
      unfold wrap64. rewrite Z.mod_small by lia. destruct (Z.ltb_spec (t / 1000000) (2 ^ 63)); [reflexivity|lia]. }
    rewrite W. apply C73_total, M.
  Qed.

  (** The loop [strategy.next(signal); metrics.next(&strategy)] does not panic
      when the metrics does not after a strategy step. *)
  Lemma observed_total {M} (mstep : ctx F -> M -> strategy F -> res (M * unit)) cfg m0 c sigs :
    priced c (length sigs) ->
    (forall xs x s s' m, (length xs < length sigs)%nat -> after cfg c xs s -> after cfg c (xs ++ [x]) s' ->
       strategy_step (ctx_at c (length xs)) s x = Ok (s', tt) ->
       exists m', mstep (ctx_at c (length xs)) m s' = Ok (m', tt)) ->
    exists os, observed mstep cfg m0 c sigs os /\ length os = length sigs.
  Proof.
    intros P H. unfold observed, run.
    assert (G : exists s m os, run_st (metered mstep) c (strategy_new cfg, m0) sigs = Ok ((s, m), os) /\ length os = length sigs /\
       after cfg c sigs s).
    { revert P H. induction sigs as [|x sigs IH] using rev_ind; intros P H.
      - do 3 eexists. split; [reflexivity|]. split; [reflexivity|]. eexists. reflexivity.
      - rewrite app_length in *. cbn [length] in *.
        destruct IH as (s & m & os & R & L & A); [intros k K; apply P; lia|intros xs y s s' m K; apply H; lia|].
        destruct (C28_runs cfg c (sigs ++ [x])) as [s' A']; [rewrite app_length; exact P|].
        pose proof A as A0. destruct A0 as [o1 R1]. pose proof A' as A0. destruct A0 as [o2 R2].
        rewrite run_st_app, R1 in R2. cbn [rbind run_st] in R2.
        destruct (strategy_step (ctx_at c (length sigs)) s x) as [[s2 []]|] eqn:ST; [|discriminate]. cbn [rbind] in R2.
        injection R2 as -> <-.
        destruct (H sigs x s s' m ltac:(lia) A A' ST) as [m' EM].
        exists s', m', (os ++ [(s', m')]). rewrite run_st_app, R. cbn [rbind run_st]. unfold metered at 1. cbn [fst snd].
        rewrite ST. cbn [rbind]. rewrite EM. cbn [rbind]. split; [reflexivity|]. rewrite app_length, L. split; [reflexivity|exact A']. }
    destruct G as (s & m & os & -> & L & _). exists os. split; [reflexivity|exact L].
  Qed.

  Lemma equity_total cfg c (sigs xs : list (option direction)) x s e : complete c (length sigs) -> (length xs < length sigs)%nat ->
    after cfg c (xs ++ [x]) s -> exists e', equity_step (ctx_at c (length xs)) e s = Ok (e', tt).
  Proof.
    intros P L A. unfold equity_step. rewrite split_last_newest.
    destruct (match s_on_exit s with Some _ => _ | None => _ end) as [[n1 n2] n3].
    destruct (newest (s_trades s)) as [t|] eqn:N; cbn [option_map].
    2:{ eexists; reflexivity. }
    destruct (t_closed t) eqn:TC; [eexists; reflexivity|].
    unfold newest in N. destruct (C28_trades _ _ _ _ A _ _ N) as (et & ep & sz & _ & TE & TF & _).
    destruct (P _ L (p_low (c_data c))) as [lo Hl]; [cbn; tauto|]. destruct (P _ L (p_high (c_data c))) as [hi Hh]; [cbn; tauto|].
    unfold bar_low, bar_high, vget. rewrite ctx_at_data, ctx_at_index, Hl, Hh. cbn [rbind unwrap].
    unfold trade_cur_pnl. rewrite TF, TE. destruct (t_dir t); cbn; eexists; reflexivity.
  Qed.

  (** Equity tracker and TradingView metrics: any configuration, any signals,
      complete bars, any length, any arithmetic. *)
  Theorem C89_equity (cfg : sconfig F) k c sigs : complete c (length sigs) ->
    exists os, observed equity_step cfg (equity_new k) c sigs os /\ length os = length sigs.
  Proof.
    intros P. apply observed_total; [apply complete_priced, P|]. intros xs x s s' e L _ A _. eapply equity_total; eassumption.
  Qed.
  Theorem C89_tradingview (cfg : sconfig F) rfr c sigs : complete c (length sigs) ->
    exists os, observed tv_step cfg (tv_new (strategy_new cfg) rfr) c sigs os /\ length os = length sigs.
  Proof.
    intros P. apply observed_total; [apply complete_priced, P|]. intros xs x s s' t L _ A _.
    destruct (equity_total cfg c sigs xs x s' (tv_eqm t) P L A) as [e E]. unfold tv_step. rewrite E. cbn [rbind].
    destruct (sstdev_next (tv_neg_stdev t) _). eexists; reflexivity.
  Qed.
  (** Cobra metrics: with a start year the bars must be dated. *)
  Theorem C89_cobra (cfg : sconfig F) est start c sigs : complete c (length sigs) ->
    (start = None \/ dated c (length sigs)) ->
    exists os, observed cobra_step cfg (cobra_new (strategy_new cfg) est start) c sigs os /\ length os = length sigs.
  Proof.
    intros P D.
    assert (G : exists os, observed (fun c b s => if match cb_start_year b, start with Some y, Some z => (y =? z)%Z | None, None => true | _, _ => false end
       then cobra_step c b s else Ok (b, tt)) cfg (cobra_new (strategy_new cfg) est start) c sigs os /\ length os = length sigs).
    { apply observed_total; [apply complete_priced, P|]. intros xs x s s' b L A0 A ST.
      destruct (match cb_start_year b, start with Some y, Some z => (y =? z)%Z | None, None => true | _, _ => false end) eqn:SY;
        [|eexists; reflexivity].
      unfold cobra_step.
      assert (X : exists b1, cobra_on_exit b s' = Ok b1 /\ cb_start_year b1 = cb_start_year b).
      { unfold cobra_on_exit. destruct A0 as [os R0]. pose proof (step_totals _ _ _ _ _ _ _ R0 ST) as T.
        destruct (s_on_exit s') as [t|]; [|eexists; split; reflexivity]. destruct T as (_ & _ & _ & ep & ->).
        cbn [unwrap rbind]. eexists; split; reflexivity. }
      destruct X as (b1 & -> & SB). cbn [rbind].
      destruct (equity_total cfg c sigs xs x s' (cb_eqm b1) P L A) as [e ->]. cbn [rbind]. rewrite SB.
      assert (Y : exists sk, match cb_start_year b with Some y => by_ <- bar_year (ctx_at c (length xs)) ;; Ok (by_ <? y)%Z | None => Ok false end = Ok sk).
      { destruct (cb_start_year b) as [y|], start as [z|]; try discriminate SY; [|eexists; reflexivity].
        destruct D as [D|D]; [discriminate|]. destruct (bar_year_total c _ _ D L) as [yr ->]. eexists; reflexivity. }
      destruct Y as [sk ->]. cbn [rbind]. destruct sk; [eexists; reflexivity|].
      destruct (mean_next _ _). destruct (sstdev_next (cb_stdev b1) _). destruct (sstdev_next (cb_neg_stdev b1) _).
      eexists; reflexivity. }
    destruct G as (os & O & L). exists os. split; [|exact L].
    (* the start year never changes *)
    assert (K : forall ys c s b, cb_start_year b = start ->
      run_st (metered (fun c b s => if match cb_start_year b, start with Some y, Some z => (y =? z)%Z | None, None => true | _, _ => false end
       then cobra_step c b s else Ok (b, tt))) c (s, b) ys = run_st (metered cobra_step) c (s, b) ys).
    { clear. induction ys as [|y ys IH]; intros c s b SB; [reflexivity|]. cbn [run_st]. unfold metered at 1 3. cbn [fst snd].
      destruct (strategy_step c s y) as [[s' []]|]; [|reflexivity]. cbn [rbind].
      assert (E : match cb_start_year b, start with Some y, Some z => (y =? z)%Z | None, None => true | _, _ => false end = true).
      { rewrite SB. destruct start; [apply Z.eqb_refl|reflexivity]. }
      rewrite E. destruct (cobra_step c b s') as [[b' []]|] eqn:CS; [|reflexivity]. cbn [rbind]. rewrite IH; [reflexivity|].
      rewrite <- SB. clear -CS. unfold cobra_step in CS. destruct (cobra_on_exit b s') as [b1|] eqn:EX; [|discriminate]. cbn [rbind] in CS.
      assert (D1 : cb_start_year b1 = cb_start_year b).
      { unfold cobra_on_exit in EX. destruct (s_on_exit s') as [t|]; [|injection EX as <-; auto].
        destruct (t_entry_price t); [|discriminate]. cbn [unwrap rbind] in EX. injection EX as <-. auto. }
      rewrite <- D1. clear D1 EX. destruct (equity_step c (cb_eqm b1) s') as [[e []]|]; [|discriminate]. cbn [rbind] in CS.
      match type of CS with rbind ?r _ = _ => destruct r as [sk|] end; [|discriminate]. cbn [rbind] in CS.
      destruct sk; [injection CS as <-; reflexivity|].
      destruct (mean_next _ _). destruct (sstdev_next (cb_stdev b1) _). destruct (sstdev_next (cb_neg_stdev b1) _).
      injection CS as <-. reflexivity. }
    unfold observed, run in *. rewrite <- K by reflexivity. exact O.
  Qed.
End C89.

(** ** One bar of [CobraMetrics] *)
Section CobraShape.
  Context {F : Type} {NF : Num F}.
  Local Open Scope num_scope.
  Lemma cobra_step_shape c b s b' : cobra_step c b s = Ok (b', tt) ->
    let e := cb_eqm b' in
    equity_step c (cb_eqm b) s = Ok (e, tt) /\
    match s_on_exit s with
    | Some t => exists price, t_entry_price t = Some price /\
        cb_intra_dd b' = fmax (cb_cur_dd b / price) (cb_intra_dd b) /\
        cb_cur_dd b' = fmax (e_net e - e_bar_min e) (fZ 0)
    | None => cb_intra_dd b' = cb_intra_dd b /\ cb_cur_dd b' = fmax (e_net e - e_bar_min e) (cb_cur_dd b)
    end /\
    cb_ls_ratio b' = (match s_on_exit s with
                      | Some _ => unwrap_or0 (long_net_profit_ratio (sm_long_net (s_metrics s)) (sm_short_net (s_metrics s)))
                      | None => cb_ls_ratio b end).
  Proof.
    intros CS. cbn zeta. unfold cobra_step in CS. destruct (cobra_on_exit b s) as [b1|] eqn:EX; [|discriminate]. cbn [rbind] in CS.
    unfold cobra_on_exit in EX.
    assert (D : cb_eqm b1 = cb_eqm b /\
      match s_on_exit s with
      | Some t => exists price, t_entry_price t = Some price /\ cb_intra_dd b1 = fmax (cb_cur_dd b / price) (cb_intra_dd b) /\ cb_cur_dd b1 = fZ 0
      | None => cb_intra_dd b1 = cb_intra_dd b /\ cb_cur_dd b1 = cb_cur_dd b
      end /\ cb_ls_ratio b1 = match s_on_exit s with
                      | Some _ => unwrap_or0 (long_net_profit_ratio (sm_long_net (s_metrics s)) (sm_short_net (s_metrics s)))
                      | None => cb_ls_ratio b end).
    { destruct (s_on_exit s) as [t|]; [|injection EX as <-; auto].
      destruct (t_entry_price t); [|discriminate]. cbn [unwrap rbind] in EX. injection EX as <-. cbn. repeat split. eexists; repeat split. }
    clear EX. destruct D as (D1 & D2 & D3). rewrite <- D1.
    destruct (equity_step c (cb_eqm b1) s) as [[e []]|]; [|discriminate]. cbn [rbind] in CS.
    match type of CS with rbind ?r _ = _ => destruct r as [sk|] end; [|discriminate]. cbn [rbind] in CS.
    assert (E : cb_eqm b' = e /\ cb_intra_dd b' = cb_intra_dd b1 /\ cb_ls_ratio b' = cb_ls_ratio b1 /\
      cb_cur_dd b' = fmax (e_net e - e_bar_min e) (cb_cur_dd b1)).
    { destruct sk; [injection CS as <-; repeat split|].
      destruct (mean_next _ _). destruct (sstdev_next (cb_stdev b1) _). destruct (sstdev_next (cb_neg_stdev b1) _).
      injection CS as <-. repeat split. }
    destruct E as (-> & E1 & E2 & E3). rewrite E1, E2, E3. split; [reflexivity|]. split; [|exact D3].
    destruct (s_on_exit s) as [t|].
    - destruct D2 as (p & P1 & P2 & P3). exists p. rewrite P3. auto.
    - destruct D2 as (P2 & P3). rewrite P3. auto.
  Qed.
End CobraShape.

(** ** C40: the long/short ratio *)
Section C40_ls.
  Context {F : Type} {NF : Num F}.
  Local Open Scope num_scope.
  (** Net profit of the longs per unit of net loss of the shorts; 0 without a
      closed trade or when the shorts made exactly nothing. *)
  Theorem C40_long_short (cfg : sconfig F) est start c sigs os s b :
    observed cobra_step cfg (cobra_new (strategy_new cfg) est start) c sigs os -> newest os = Some (s, b) ->
    let m := s_metrics s in
    cb_ls_ratio b = (if (sm_closed m =? 0)%nat || (sm_short_net m ==? fZ 0) then fZ 0 else sm_long_net m / sm_short_net m * fZ (-1)).
  Proof.
    intros O N. cbn zeta.
    destruct (metered_ind _ _ _ _ _ _ (fun l s b => let m := s_metrics s in
      cb_ls_ratio b = (if (sm_closed m =? 0)%nat || (sm_short_net m ==? fZ 0) then fZ 0 else sm_long_net m / sm_short_net m * fZ (-1))) O)
      as (s1 & b1 & P & R1 & L1 & H).
    - reflexivity.
    - intros xs x a a' d d' l R ST L I H. cbn zeta in *. pose proof (step_totals _ _ _ _ _ _ _ R ST) as T.
      destruct (cobra_step_shape _ _ _ _ H) as (_ & _ & ->).
      destruct (s_on_exit a') as [t|].
      + destruct T as (-> & _). cbn [Nat.eqb orb]. unfold unwrap_or0, long_net_profit_ratio.
        destruct (sm_short_net (s_metrics a') ==? fZ 0); reflexivity.
      + destruct T as (_ & _ & _ & E4 & _ & _ & E7 & E8). rewrite I, E4, E7, E8. reflexivity.
    - destruct H as [-> | H]; [discriminate|]. rewrite N in H. injection H as <- <-. exact P.
  Qed.
End C40_ls.

(** ** C90 *)
Section C90.
  Context {F : Type} {NF : Num F} {OF : OrdNum F}.
  Local Open Scope num_scope.
  (** How far the worst price of a bar is below the net equity. *)
  Definition adverse (o : strategy F * cobra F) : F := let e := cb_eqm (snd o) in e_net e - e_bar_min e.
  (** For every closed trade, its entry price and the adverse excursions of
      the bars since the previous exit (that bar included, the bar of its own
      exit excluded); [acc]: those of the bars already seen. *)
  Fixpoint spans (acc : list F) (os : list (strategy F * cobra F)) : list (F * list F) :=
    match os with
    | [] => []
    | o :: rest =>
        match s_on_exit (fst o) with
        | Some t => match t_entry_price t with
                    | Some p => (p, acc) :: spans [adverse o] rest
                    | None => spans [adverse o] rest
                    end
        | None => spans (acc ++ [adverse o]) rest
        end
    end.
  (** What is left after the last exit. *)
  Fixpoint rest_of (acc : list F) (os : list (strategy F * cobra F)) : list F :=
    match os with
    | [] => acc
    | o :: rest => match s_on_exit (fst o) with Some _ => rest_of [adverse o] rest | None => rest_of (acc ++ [adverse o]) rest end
    end.
  Lemma rest_of_snoc acc os o : rest_of acc (os ++ [o]) =
    match s_on_exit (fst o) with Some _ => [adverse o] | None => rest_of acc os ++ [adverse o] end.
  Proof.
    revert acc. induction os as [|a os IH]; intros acc; cbn [app rest_of]; [destruct (s_on_exit (fst o)); reflexivity|].
    destruct (s_on_exit (fst a)); apply IH.
  Qed.
  Lemma spans_snoc acc os o : spans acc (os ++ [o]) = spans acc os ++
    match s_on_exit (fst o) with
    | Some t => match t_entry_price t with Some p => [(p, rest_of acc os)] | None => [] end
    | None => [] end.
  Proof.
    revert acc. induction os as [|a os IH]; intros acc; cbn [app spans rest_of].
    - destruct (s_on_exit (fst o)) as [t|]; [destruct (t_entry_price t)|]; reflexivity.
    - destruct (s_on_exit (fst a)) as [t|]; [|apply IH]. destruct (t_entry_price t); rewrite IH; reflexivity.
  Qed.
  (** [d] is the largest adverse excursion of the span, at least 0. *)
  Definition deepest (sp : F * list F) (d : F) : Prop := greatest_of d (fZ 0 :: snd sp).

  (** The reported figure is the largest, over the closed trades, of the
      trade's deepest excursion relative to its entry price (0 without any). *)
  Theorem C90_intra_trade (cfg : sconfig F) est start c sigs os s b :
    observed cobra_step cfg (cobra_new (strategy_new cfg) est start) c sigs os -> newest os = Some (s, b) ->
    length (spans [] os) = sm_closed (s_metrics s) /\
    exists ds, Forall2 deepest (spans [] os) ds /\
      greatest_of (cb_intra_dd b) (fZ 0 :: map (fun pd => snd pd / fst (fst pd)) (combine (spans [] os) ds)).
  Proof.
    intros O N.
    destruct (metered_ind _ _ _ _ _ _ (fun l s b => length (spans [] l) = sm_closed (s_metrics s) /\
      greatest_of (cb_cur_dd b) (fZ 0 :: rest_of [] l) /\
      exists ds, Forall2 deepest (spans [] l) ds /\
      greatest_of (cb_intra_dd b) (fZ 0 :: map (fun pd => snd pd / fst (fst pd)) (combine (spans [] l) ds))) O)
      as (s1 & b1 & P & R1 & L1 & H).
    - assert (Z : greatest_of (fZ 0 : F) [fZ 0]).
      { split; [left; reflexivity|]. split; [apply nan_fZ|]. intros y [<-|[]]. right. apply le_refl, nan_fZ. }
      split; [reflexivity|]. split; [exact Z|]. exists []. split; [constructor|exact Z].
    - intros xs x a a' d d' l R ST L (I1 & I2 & ds & I3 & I4) H. pose proof (step_totals _ _ _ _ _ _ _ R ST) as T.
      destruct (cobra_step_shape _ _ _ _ H) as (_ & S & _). rewrite spans_snoc, rest_of_snoc. cbn [fst].
      assert (AD : adverse (a', d') = e_net (cb_eqm d') - e_bar_min (cb_eqm d')) by reflexivity.
      destruct (s_on_exit a') as [t|].
      + destruct S as (p & TP & S1 & S2). rewrite TP. destruct T as (TC & _).
        rewrite app_length. cbn [length]. split; [lia|]. rewrite S1, S2. split.
        { rewrite <- AD. apply (greatest_of_snoc' (fZ 0) [fZ 0]). split; [left; reflexivity|]. split; [apply nan_fZ|].
          intros y [<-|[]]. right. apply le_refl, nan_fZ. }
        exists (ds ++ [cb_cur_dd d]). split; [apply Forall2_app; [exact I3|constructor; [exact I2|constructor]]|].
        assert (G : forall (A B : Type) (u : list A) (v : list B) y z, length u = length v -> combine (u ++ [y]) (v ++ [z]) = combine u v ++ [(y, z)]).
        { clear. intros A B u; induction u as [|k u IH]; intros [|w v] y z L; try discriminate; [reflexivity|]. cbn. rewrite IH by (cbn in L; lia). reflexivity. }
        rewrite G by (clear -I3; induction I3; cbn; congruence). rewrite map_app. cbn [map fst snd].
        apply (greatest_of_snoc' _ (fZ 0 :: map (fun pd => snd pd / fst (fst pd)) (combine (spans [] l) ds))). exact I4.
      + destruct S as (S1 & S2). rewrite app_nil_r. destruct T as (_ & _ & _ & E4 & _). split; [congruence|]. split.
        * rewrite S2, <- AD. apply (greatest_of_snoc' _ (fZ 0 :: rest_of [] l)). exact I2.
        * exists ds. split; [exact I3|]. rewrite S1. exact I4.
    - destruct H as [-> | H]; [discriminate|]. rewrite N in H. injection H as <- <-. destruct P as (P1 & _ & P3). split; assumption.
  Qed.
  (** So it is never negative. *)
  Theorem C90_nonneg (cfg : sconfig F) est start c sigs os s b :
    observed cobra_step cfg (cobra_new (strategy_new cfg) est start) c sigs os -> newest os = Some (s, b) ->
    (fZ 0 <=? cb_intra_dd b) = true.
  Proof.
    intros O N. destruct (C90_intra_trade _ _ _ _ _ _ _ _ O N) as (_ & ds & _ & (_ & _ & G)).
    destruct (G (fZ 0)) as [G0|G0]; [left; reflexivity|rewrite nan_fZ in G0; discriminate|exact G0].
  Qed.
End C90.

(** ** C91: the equity band while flat *)
Section C91.
  Context {F : Type} {NF : Num F}.
  Local Open Scope num_scope.
  (** The band collapses to the net equity as long as no trade was opened, and
      in continuous mode there is no other way to be flat. *)
  Theorem C91_flat_partial (cfg : sconfig F) c sigs os s e :
    observed equity_step cfg (equity_new (sc_capital cfg)) c sigs os -> newest os = Some (s, e) ->
    forallb t_closed (s_trades s) = true -> (s_trades s = [] \/ sc_continuous cfg = true) ->
    e_bar_min e = e_net e + fZ 0 /\ e_bar_max e = e_net e + fZ 0.
  Proof.
    intros O N CL H.
    destruct (metered_ind _ _ _ _ _ _ (fun l s e => s_trades s = [] -> e_bop_min e = fZ 0 /\ e_bop_max e = fZ 0 /\
      (l <> [] -> e_bar_min e = e_net e + fZ 0 /\ e_bar_max e = e_net e + fZ 0)) O) as (s1 & e1 & P & R1 & L1 & K).
    - intros _. repeat split; congruence.
    - intros xs x a a' d d' l R ST L I ES E0. pose proof (run_tracks _ _ _ _ _ R) as T.
      assert (A : after cfg c xs a) by (eexists; exact R).
      assert (A' : after cfg c (xs ++ [x]) a').
      { eexists. rewrite run_st_app, R. cbn [rbind run_st]. rewrite ST. reflexivity. }
      assert (EA : s_trades a = []).
      { pose proof (C33_signal_effect _ _ _ _ _ _ A A') as EF. cbn zeta in EF. destruct (executed cfg xs x) as [dd|]; [|congruence].
        destruct (newest (s_trades a)) as [t|] eqn:NA.
        - destruct (t_closed t).
          + destruct EF as (n & EF & _). rewrite EF in E0. destruct (s_trades a); discriminate.
          + destruct (dir_eqb (t_dir t) dd); [congruence|]. exfalso.
            destruct EF as (t' & _ & EF). destruct (sc_continuous cfg).
            * destruct EF as (n & EF & _). rewrite EF in E0. eapply app_cons_not_nil. symmetry. exact E0.
            * rewrite EF in E0. eapply app_cons_not_nil. symmetry. exact E0.
        - destruct (s_trades a) as [|t0 ts]; [reflexivity|]. exfalso. unfold newest in NA. apply nth_error_None in NA. cbn in NA. lia. }
      destruct (I EA) as (I1 & I2 & _). destruct (equity_step_shape _ _ _ _ ES) as (_ & _ & _ & EN & _ & _ & B1 & B2 & NB).
      rewrite E0 in NB. cbn in NB. destruct NB as [-> ->]. rewrite B1, B2, EN.
      assert (X : e_bop_min d' = fZ 0 /\ e_bop_max d' = fZ 0).
      { destruct (equity_step_shape _ _ _ _ ES) as (_ & _ & _ & _ & _ & _ & _ & _ & NB). rewrite E0 in NB. cbn in NB.
        destruct NB as [-> ->]. auto. }
      destruct X as [-> ->]. auto.
    - destruct K as [-> | K]; [discriminate|]. rewrite N in K. injection K as <- <-.
      assert (E0 : s_trades s = []).
      { destruct H as [H|H]; [exact H|]. assert (A : after cfg c sigs s) by (eexists; exact R1).
        destruct (orders cfg (c_data c) (c_index c) sigs) as [|o ol] eqn:OR.
        - rewrite (C29_orders _ _ _ _ A), OR. reflexivity.
        - exfalso. assert (NO : exists o', newest (orders cfg (c_data c) (c_index c) sigs) = Some o').
          { rewrite OR. unfold newest. destruct (nth_error (o :: ol) (length (o :: ol) - 1)) as [o'|] eqn:E; [eauto|].
            apply nth_error_None in E. cbn in E. lia. }
          destruct NO as [[[tick price] d] NO]. destruct (C32_in_market _ _ _ _ H A _ _ _ NO) as (t & NT & TC & _).
          unfold newest in NT. apply nth_error_In in NT. rewrite forallb_forall in CL. rewrite (CL _ NT) in TC. discriminate. }
      destruct (P E0) as (_ & _ & P3). apply P3. intros ->; discriminate.
  Qed.
End C91.
(** In non-continuous mode it does not: the excursion of the last bar on which
    the trade was open is kept and added to the net equity of the flat bars.
    Long at 10, the price falls to 2, the trade is left at 3: the lowest the
    equity ever stood is 92 (marked at the low), yet while flat with a net
    equity of 93 the band starts at 85 and the reported maximal drawdown is
    100 - 85 = 15 instead of 8. *)
Definition ctx91 : ctx f64 :=
  let d := mkProvider (qs [10; 10; 3; 3]%Z) (qs [10; 10; 3; 3]%Z) (qs [10; 2; 3; 3]%Z) (qs [10; 3; 3; 3]%Z) (qs [1; 1; 1; 1]%Z)
             [None; None; None; None] 0 3 in
  mkCtx d 0 3 4 0 true.
Definition view91 (r : res (list (strategy f64 * tvmetrics f64))) : option (list (bool * (bool * bool * bool))) :=
  match r with
  | Ok os => Some (map (fun o => (forallb t_closed (s_trades (fst o)),
      (feqb (e_net (tv_eqm (snd o))) (q 93), feqb (e_bar_min (tv_eqm (snd o))) (q 85), feqb (tv_max_drawdown (tv_data (snd o))) (q 15)))) os)
  | Panic => None
  end.
Definition low91 (o : strategy f64 * tvmetrics f64) : bool :=
  (* a bar with an open trade: the equity at the bar's worst price is at least 92 *)
  forallb t_closed (s_trades (fst o)) || fleb (q 92) (e_bar_min (tv_eqm (snd o))).
Theorem C91_refuted : exists os, observed tv_step (cfg_of true false false) (tv_new (strategy_new (cfg_of true false false)) tv_default_rfr) ctx91
    [Some Long; None; Some Short; None] os /\
  forallb low91 os = true /\
  view91 (Ok os) = Some [(false, (false, false, false)); (false, (false, false, false)); (true, (true, true, true)); (true, (true, true, true))].
Proof.
  unfold observed. destruct (run (metered tv_step) ctx91 (strategy_new (cfg_of true false false), tv_new (strategy_new (cfg_of true false false)) tv_default_rfr)
    [Some Long; None; Some Short; None]) as [os|] eqn:R.
  - exists os. split; [reflexivity|]. split.
    + assert (G : match run (metered tv_step) ctx91 (strategy_new (cfg_of true false false), tv_new (strategy_new (cfg_of true false false)) tv_default_rfr)
        [Some Long; None; Some Short; None] with Ok os => forallb low91 os | Panic => false end = true) by (vm_compute; reflexivity).
      rewrite R in G. exact G.
    + rewrite <- R. vm_compute. reflexivity.
  - assert (G : match run (metered tv_step) ctx91 (strategy_new (cfg_of true false false), tv_new (strategy_new (cfg_of true false false)) tv_default_rfr)
        [Some Long; None; Some Short; None] with Ok _ => true | Panic => false end = true) by (vm_compute; reflexivity).
    rewrite R in G. discriminate.
Qed.

(** ** C39, C72: the remaining TradingView figures *)
Section C39_more.
  Context {F : Type} {NF : Num F}.
  Local Open Scope num_scope.
  (** The percentages of drawdown and run-up: relative to the peak net equity
      and to the top of the current bar's band. *)
  Theorem C39_percentages (cfg : sconfig F) rfr c sigs os s t :
    observed tv_step cfg (tv_new (strategy_new cfg) rfr) c sigs os -> newest os = Some (s, t) ->
    let d := tv_data t in
    tv_max_drawdown_percent d = tv_max_drawdown d / e_net_max (tv_eqm t) /\
    tv_max_run_up_percent d = tv_max_run_up d / e_bar_max (tv_eqm t).
  Proof.
    intros O N. cbn zeta.
    destruct (metered_ind _ _ _ _ _ _ (fun l s t => l <> [] -> let d := tv_data t in
      tv_max_drawdown_percent d = tv_max_drawdown d / e_net_max (tv_eqm t) /\
      tv_max_run_up_percent d = tv_max_run_up d / e_bar_max (tv_eqm t)) O) as (s1 & t1 & P & R1 & L1 & H).
    - congruence.
    - intros xs x a a' b b' l R ST L _ H _. unfold tv_step in H.
      destruct (equity_step (ctx_at c (length xs)) (tv_eqm b) a') as [[e []]|] eqn:E; [|discriminate]. cbn [rbind] in H.
      destruct (sstdev_next (tv_neg_stdev b) _) as [nst nsd]. injection H as <-. split; reflexivity.
    - destruct H as [-> | H]; [discriminate|]. rewrite N in H. injection H as <- <-. apply P. intros ->; discriminate.
  Qed.
  (** Sharpe and Sortino as computed: every bar's "return" is the net equity
      minus the initial capital (not minus the previous net equity, see
      [C72_partial]), so this is not the ratio of the per-bar returns. *)
  Theorem C72_tradingview_partial (cfg : sconfig F) rfr c sigs os s t :
    observed tv_step cfg (tv_new (strategy_new cfg) rfr) c sigs os -> newest os = Some (s, t) ->
    let ds := map (fun o => e_net (tv_eqm (snd o)) - sc_capital cfg) os in
    tv_sharpe (tv_data t) = ratio (mean ds - rfr) (stdev ds) /\
    tv_sortino (tv_data t) = ratio (mean ds - rfr) (stdev (map loss_part ds)).
  Proof.
    intros O N. cbn zeta.
    destruct (metered_ind _ _ _ _ _ _ (fun l s t =>
      let ds := map (fun o => e_net (tv_eqm (snd o)) - sc_capital cfg) l in
      tv_rfr t = rfr /\ r_prev (tv_returns t) = sc_capital cfg /\
      r_mean_st (tv_returns t) = mkMean (fsum ds) (length ds) /\
      r_stdev_st (tv_returns t) = mkVar false ds wvar_new (mkMean (fsum ds) (length ds)) /\
      tv_neg_stdev t = mkVar false (map loss_part ds) wvar_new (mkMean (fsum (map loss_part ds)) (length (map loss_part ds))) /\
      (l <> [] -> tv_sharpe (tv_data t) = ratio (mean ds - rfr) (stdev ds) /\
      tv_sortino (tv_data t) = ratio (mean ds - rfr) (stdev (map loss_part ds)))) O) as (s1 & t1 & P & R1 & L1 & H).
    - cbn. repeat split; congruence.
    - intros xs x a a' b b' l R ST L (I1 & I2 & I3 & I4 & I5 & _) H. unfold tv_step in H.
      destruct (equity_step (ctx_at c (length xs)) (tv_eqm b) a') as [[e []]|] eqn:E; [|discriminate]. cbn [rbind] in H.
      set (ds := map (fun o => e_net (tv_eqm (snd o)) - sc_capital cfg) l) in *.
      unfold returns_next in H. rewrite I2, I3, I4 in H. unfold sstdev_next in H. rewrite var_slow_state in H.
      unfold mean_next in H. cbn [mn_sum mn_n r_delta] in H.
      change (fabs (fmin (fZ 0) (e_net e - sc_capital cfg))) with (loss_part (e_net e - sc_capital cfg)) in H.
      rewrite I5, var_slow_state in H. injection H as <-. rewrite map_app. cbn [map snd tv_eqm tv_rfr tv_returns tv_neg_stdev tv_data r_prev r_mean_st r_stdev_st tv_sharpe tv_sortino r_mean r_stdev].
      fold ds. rewrite !map_app. cbn [map]. rewrite I1.
      split; [reflexivity|]. split; [reflexivity|]. split; [rewrite fsum_snoc, app_length; reflexivity|].
      split; [reflexivity|]. split; [reflexivity|]. intros _. unfold sharpe_ratio, sortino_ratio, ratio, mean, stdev.
      rewrite !fsum_snoc, !app_length. cbn [length]. split; reflexivity.
    - destruct H as [-> | H]; [discriminate|]. rewrite N in H. injection H as <- <-. apply P. intros ->; discriminate.
  Qed.
End C39_more.

(** ** C92: the estimated mode of [CobraMetrics] *)
Section C92.
  Open Scope R_scope.
  (** Welford's state after the values [rs]. *)
  Definition wst (rs : list R) : wvar_st xr :=
    mkWvar (length rs) (Fin (if rs then 0 else Rmean rs)) (Fin (if rs then 0 else Rssd rs)).
  Lemma wst_next (c : ctx xr) rs x : wvar_next (wst rs) (Fin x) = (wst (rs ++ [x]), Fin (Rsample_var (rs ++ [x]))).
  Proof.
    destruct (wvar_run c rs) as (s & R & ->). destruct (wvar_run c (rs ++ [x])) as (s' & R' & ->).
    rewrite map_app, run_st_app in R'. fold (wst rs) in R. fold (wst (rs ++ [x])) in R'. rewrite R in R'. cbn [rbind map run_st] in R'.
    unfold wvar_step in R' at 1. destruct (wvar_next (wst rs) (Fin x)) as [w o]. cbn [rbind] in R'.
    rewrite each_prefix_snoc, map_app in R'. injection R' as -> E. apply app_inv_head in E. injection E as ->. reflexivity.
  Qed.
  Definition est_sd (rs : list R) : R := sqrt (Rsample_var rs).
  Lemma est_next (c : ctx xr) rs x : sstdev_next (mkVar true ic_new (wst rs) mean_new) (Fin x) =
    (mkVar true ic_new (wst (rs ++ [x])) mean_new, Fin (est_sd (rs ++ [x]))).
  Proof.
    unfold sstdev_next, var_next. cbn [va_fast va_welford va_cache va_mean]. rewrite (wst_next c). f_equal.
    apply fin_stdev_from_var. apply C41_nonneg.
  Qed.
  Definition gain_of (r : R) : R := Rmax 0 r.
  Definition loss_of (r : R) : R := Rmax 0 (- r).
  Lemma fin_gain_part r : gains_part (Fin r) = Fin (gain_of r).
  Proof. unfold gains_part, gain_of. rewrite fin_Z, fin_max. reflexivity. Qed.
  Lemma fin_loss_part r : loss_part (Fin r) = Fin (loss_of r).
  Proof.
    unfold loss_part, loss_of. rewrite fin_Z, fin_min, fin_abs. f_equal. unfold Rmin, Rmax.
    destruct (Rle_dec 0 r), (Rle_dec 0 (- r)); try rewrite Rabs_R0; try (rewrite Rabs_left1 by lra); lra.
  Qed.
  Definition rratio (a b : R) : R := if Req_EM_T b 0 then 0 else a / b.
  Lemma fin_ratio a b : ratio (Fin a) (Fin b) = Fin (rratio a b).
  Proof.
    unfold ratio, rratio. rewrite fin_Z, fin_eq. unfold Reqb. destruct (Req_EM_T b 0) as [->|H].
    - destruct (Req_EM_T 0 0); [reflexivity|congruence].
    - destruct (Req_EM_T b 0); [congruence|]. apply fin_div, H.
  Qed.

  Lemma cobra_ret_shape (c : ctx xr) b s b' : cobra_step c b s = Ok (b', tt) ->
    let ret := returns_of (sm_equity (s_metrics s)) (cb_prev_equity b) in
    cb_prev_equity b' = sm_equity (s_metrics s) /\ cb_rfr b' = cb_rfr b /\ cb_annualized b' = cb_annualized b /\
    cb_start_year b' = cb_start_year b /\
    let skip := match cb_start_year b with
                | Some y => match bar_year c with Ok z => (z <? y)%Z | Panic => false end
                | None => false end in
    if skip then cb_mean b' = cb_mean b /\ cb_stdev b' = cb_stdev b /\ cb_neg_stdev b' = cb_neg_stdev b /\
      cb_pos_sum b' = cb_pos_sum b /\ cb_neg_sum b' = cb_neg_sum b /\
      cb_sharpe b' = cb_sharpe b /\ cb_sortino b' = cb_sortino b /\ cb_omega b' = cb_omega b
    else cb_mean b' = fst (mean_next (cb_mean b) ret) /\ cb_stdev b' = fst (sstdev_next (cb_stdev b) ret) /\
      cb_neg_stdev b' = fst (sstdev_next (cb_neg_stdev b) (loss_part ret)) /\
      cb_pos_sum b' = fadd (cb_pos_sum b) (gains_part ret) /\ cb_neg_sum b' = fadd (cb_neg_sum b) (loss_part ret) /\
      cb_sharpe b' = fmul (sharpe_ratio (snd (mean_next (cb_mean b) ret)) (snd (sstdev_next (cb_stdev b) ret)) (cb_rfr b)) (cb_annualized b) /\
      cb_sortino b' = fmul (sortino_ratio (snd (mean_next (cb_mean b) ret)) (snd (sstdev_next (cb_neg_stdev b) (loss_part ret))) (cb_rfr b)) (cb_annualized b) /\
      cb_omega b' = fmul (omega_ratio (fadd (cb_pos_sum b) (gains_part ret)) (fadd (cb_neg_sum b) (loss_part ret)) (cb_rfr b)) (cb_annualized b).
  Proof.
    intros CS. cbn zeta. unfold cobra_step in CS. destruct (cobra_on_exit b s) as [b1|] eqn:EX; [|discriminate]. cbn [rbind] in CS.
    unfold cobra_on_exit in EX.
    assert (D : cb_prev_equity b1 = cb_prev_equity b /\ cb_rfr b1 = cb_rfr b /\ cb_annualized b1 = cb_annualized b /\
      cb_start_year b1 = cb_start_year b /\ cb_mean b1 = cb_mean b /\ cb_stdev b1 = cb_stdev b /\ cb_neg_stdev b1 = cb_neg_stdev b /\
      cb_pos_sum b1 = cb_pos_sum b /\ cb_neg_sum b1 = cb_neg_sum b /\
      cb_sharpe b1 = cb_sharpe b /\ cb_sortino b1 = cb_sortino b /\ cb_omega b1 = cb_omega b).
    { destruct (s_on_exit s) as [t|]; [|injection EX as <-; repeat split].
      destruct (t_entry_price t); [|discriminate]. cbn [unwrap rbind] in EX. injection EX as <-. repeat split. }
    clear EX. destruct D as (<- & <- & <- & <- & <- & <- & <- & <- & <- & <- & <- & <-).
    destruct (equity_step c (cb_eqm b1) s) as [[e []]|] eqn:EE; [|discriminate]. cbn [rbind] in CS.
    apply equity_step_shape in EE. destruct EE as (EQ & _). rewrite EQ in CS.
    assert (SK : forall r : bool -> res (cobra xr * unit), (skip <- match cb_start_year b1 with
            | Some y => by_ <- bar_year c ;; Ok (by_ <? y)%Z
            | None => Ok false
            end ;; r skip) = Ok (b', tt) ->
       r (match cb_start_year b1 with
                | Some y => match bar_year c with Ok z => (z <? y)%Z | Panic => false end
                | None => false end) = Ok (b', tt)).
    { intros r. destruct (cb_start_year b1); [|auto]. destruct (bar_year c); [auto|discriminate]. }
    apply SK in CS. clear SK.
    destruct (match cb_start_year b1 with Some y => _ | None => _ end).
    - injection CS as <-. repeat split.
    - unfold loss_part, gains_part.
      destruct (mean_next (cb_mean b1) _) as [m1 m2]. destruct (sstdev_next (cb_stdev b1) _) as [d1 d2].
      destruct (sstdev_next (cb_neg_stdev b1) _) as [n1 n2]. injection CS as <-. cbn. repeat split.
  Qed.
  Lemma fin_returns a k : exists r, returns_of (Fin a) (Fin k) = Fin r.
  Proof.
    unfold returns_of. rewrite !fin_Z, !fin_eq. unfold Reqb. destruct (Req_EM_T k 0); cbn [orb]; [eauto|].
    destruct (Req_EM_T a 0); [eauto|]. rewrite fin_div by assumption. eexists. reflexivity.
  Qed.
  Lemma fin_last l k : Forall finite l -> finite k -> finite (last l k).
  Proof.
    intros L K. destruct l as [|x l _] using rev_ind; [exact K|]. rewrite last_last.
    apply Forall_app in L. destruct L as [_ L]. inversion L; subst; assumption.
  Qed.
  Lemma after_equity_finite (cfg : sconfig xr) c sigs s : finite (sc_capital cfg) -> real_prices c -> after cfg c sigs s ->
    finite (sm_equity (s_metrics s)).
  Proof.
    intros K RP A. destruct sigs as [|x sigs _] using rev_ind.
    - destruct A as [os R]. cbn in R. injection R as <- _. exact K.
    - pose proof A as [os R]. rewrite run_st_app in R. destruct (run_st strategy_step c (strategy_new cfg) sigs) as [[s1 o1]|] eqn:R1; [|discriminate].
      assert (A1 : after cfg c sigs s1) by (eexists; exact R1).
      destruct (C85_mark_to_market cfg c sigs x s1 s K RP A1 A) as (_ & H & _). exact H.
  Qed.
  Lemma Rsum_snoc l x : Rsum (l ++ [x]) = Rsum l + x.
  Proof. rewrite Rsum_app. cbn. lra. Qed.
  Lemma fin_pos365 : 0 <= 365. Proof. lra. Qed.

  (** The annualised ratios (risk-free rate 0) of the per-bar returns [rs],
      with the standard deviations [sd rs] and [sd] of the losses. *)
  Definition ratios_are (sd : list R -> R) (rs : list R) (b : cobra xr) : Prop :=
    cb_sharpe b = Fin (if rs then 0 else rratio (Rmean rs) (sd rs) * sqrt 365) /\
    cb_sortino b = Fin (if rs then 0 else rratio (Rmean rs) (sd (map loss_of rs)) * sqrt 365) /\
    cb_omega b = Fin (if rs then 0 else rratio (Rsum (map gain_of rs)) (Rsum (map loss_of rs)) * sqrt 365).
  Definition returns_are (cfg : sconfig xr) (c : ctx xr) start (os : list (strategy xr * cobra xr)) (rs : list R) : Prop :=
    counted c start (bar_returns (sc_capital cfg) (map (fun o => sm_equity (s_metrics (fst o))) os)) = map Fin rs.

  (** Estimated mode: the sample standard deviation (denominator n - 1). *)
  Theorem C92_estimated (cfg : sconfig xr) start c sigs os s b : finite (sc_capital cfg) -> real_prices c ->
    observed cobra_step cfg (cobra_new (strategy_new cfg) true start) c sigs os -> newest os = Some (s, b) ->
    exists rs, returns_are cfg c start os rs /\ ratios_are est_sd rs b.
  Proof.
    intros K RP O N.
    destruct (metered_ind _ _ _ _ _ _ (fun l s b =>
       cb_start_year b = start /\ cb_rfr b = Fin 0 /\ cb_annualized b = Fin (sqrt 365) /\
       cb_prev_equity b = last (map (fun o => sm_equity (s_metrics (fst o))) l) (sc_capital cfg) /\
       Forall finite (map (fun o => sm_equity (s_metrics (fst o))) l) /\
       exists rs, returns_are cfg c start l rs /\
       cb_mean b = mkMean (Fin (Rsum rs)) (length rs) /\
       cb_stdev b = mkVar true ic_new (wst rs) mean_new /\
       cb_neg_stdev b = mkVar true ic_new (wst (map loss_of rs)) mean_new /\
       cb_pos_sum b = Fin (Rsum (map gain_of rs)) /\ cb_neg_sum b = Fin (Rsum (map loss_of rs)) /\
       ratios_are est_sd rs b) O) as (s1 & b1 & P & R1 & L1 & H).
    - split; [reflexivity|]. split; [reflexivity|]. split; [apply (fin_sqrt 365 fin_pos365)|]. split; [reflexivity|].
      split; [constructor|]. exists []. repeat split.
    - intros xs x a a' d d' l RUN ST L (I1 & I2 & I3 & I4 & I5 & rs & I6 & I7 & I8 & I9 & I10 & I11 & I12) H.
      apply cobra_ret_shape in H. cbn zeta in H. destruct H as (J1 & J2 & J3 & J4 & J).
      rewrite I4 in J. rewrite I1 in J.
      assert (A' : after cfg c (xs ++ [x]) a').
      { eexists. rewrite run_st_app, RUN. cbn [rbind run_st]. rewrite ST. reflexivity. }
      pose proof (after_equity_finite _ _ _ _ K RP A') as FE.
      assert (LA : last (map (fun o => sm_equity (s_metrics (fst o))) (l ++ [(a', d')])) (sc_capital cfg) = sm_equity (s_metrics a')).
      { rewrite map_app. cbn [map fst]. apply last_last. }
      split; [congruence|]. split; [congruence|]. split; [congruence|]. split; [congruence|].
      split; [rewrite map_app; apply Forall_app; split; [exact I5|constructor; [exact FE|constructor]]|].
      set (ret := returns_of (sm_equity (s_metrics a')) (last (map (fun o => sm_equity (s_metrics (fst o))) l) (sc_capital cfg))) in *.
      assert (RF : exists r, ret = Fin r).
      { destruct FE as [ea EA]. destruct (fin_last _ _ I5 K) as [eb EB]. unfold ret. rewrite EA, EB. apply fin_returns. }
      destruct RF as [r RF].
      assert (NR : counted c start (bar_returns (sc_capital cfg) (map (fun o => sm_equity (s_metrics (fst o))) (l ++ [(a', d')]))) =
        map Fin rs ++ (if year_skipped c start (length xs) then [] else [Fin r])).
      { rewrite map_app. cbn [map fst]. rewrite bar_returns_snoc, counted_snoc. fold ret. rewrite RF. unfold returns_are in I6. rewrite I6. f_equal.
        rewrite length_bar_returns, map_length, L. reflexivity. }
      change (match start with Some y => match bar_year (ctx_at c (length xs)) with Ok z => (z <? y)%Z | Panic => false end | None => false end)
        with (year_skipped c start (length xs)) in J.
      destruct (year_skipped c start (length xs)).
      + destruct J as (K1 & K2 & K3 & K4 & K5 & K6 & K7 & K8). exists rs. unfold returns_are, ratios_are. rewrite NR, app_nil_r, K1, K2, K3, K4, K5, K6, K7, K8.
        repeat (split; [assumption || reflexivity|]). exact I12.
      + destruct J as (K1 & K2 & K3 & K4 & K5 & K6 & K7 & K8). exists (rs ++ [r]). rewrite RF in *.
        rewrite I7 in K1, K6, K7. rewrite I8, (est_next c) in K2. rewrite I8, (est_next c) in K6.
        rewrite fin_loss_part in *. rewrite fin_gain_part in *.
        rewrite I9, (est_next c) in K3. rewrite I9, (est_next c) in K7. rewrite I10 in K4. rewrite I11 in K5. rewrite I10, I11 in K8. rewrite I2, I3 in K6, K7, K8.
        cbn [fst snd mean_next mn_sum mn_n] in K1, K2, K3, K6, K7.
        assert (NE : forall (A : Type) (u v : A), (match rs ++ [r] with [] => u | _ => v end) = v) by (intros; destruct rs; reflexivity).
        assert (SN : forall (f : R -> R), Rsum (map f (rs ++ [r])) = Rsum (map f rs) + f r) by (intros f; rewrite map_app; cbn [map]; apply Rsum_snoc).
        assert (MM : fdiv (fadd (Fin (Rsum rs)) (Fin r)) (fnat (length rs + 1)) = Fin (Rmean (rs ++ [r]))).
        { rewrite fin_add, fin_nat, fin_div by (apply not_0_INR; lia). unfold Rmean. rewrite Rsum_snoc, app_length. reflexivity. }
        split; [unfold returns_are; rewrite NR, map_app; reflexivity|].
        split; [rewrite K1, Rsum_snoc, app_length; reflexivity|]. split; [exact K2|].
        split; [rewrite K3, map_app; reflexivity|]. split; [rewrite K4, SN; reflexivity|]. split; [rewrite K5, SN; reflexivity|].
        unfold ratios_are. rewrite !NE.
        rewrite MM in K6, K7.
        split; [rewrite K6|split; [rewrite K7|rewrite K8]].
        * unfold sharpe_ratio. fold (@ratio xr _ (fsub (Fin (Rmean (rs ++ [r]))) (Fin 0)) (Fin (est_sd (rs ++ [r])))).
          rewrite fin_sub, fin_ratio, fin_mul. do 3 f_equal. lra.
        * unfold sortino_ratio. rewrite map_app. cbn [map]. fold (@ratio xr _ (fsub (Fin (Rmean (rs ++ [r]))) (Fin 0)) (Fin (est_sd (map loss_of rs ++ [loss_of r])))).
          rewrite fin_sub, fin_ratio, fin_mul. do 3 f_equal. lra.
        * rewrite !SN. unfold omega_ratio. rewrite !fin_add. fold (@ratio xr _ (fsub (Fin (Rsum (map gain_of rs) + gain_of r)) (Fin 0)) (Fin (Rsum (map loss_of rs) + loss_of r))).
          rewrite fin_sub, fin_ratio, fin_mul. do 3 f_equal. lra.
    - destruct H as [-> | H]; [discriminate|]. rewrite N in H. injection H as <- <-.
      destruct P as (_ & _ & _ & _ & _ & rs & P1 & _ & _ & _ & _ & _ & P2). exists rs. split; assumption.
  Qed.
End C92.

(** ** C38: the contents of the histories *)
Section C38_more.
  Context {F : Type} {NF : Num F}.
  Local Open Scope num_scope.
  (** Net equity and maximal drawdown so far, one entry per closed trade,
      taken at the bar of its exit. *)
  Theorem C38_histories (cfg : sconfig F) rfr c sigs os s t :
    observed tv_step cfg (tv_new (strategy_new cfg) rfr) c sigs os -> newest os = Some (s, t) ->
    let exits := filter (fun o => is_some (s_on_exit (fst o))) os in
    tv_net_equity_history (tv_data t) = sc_capital cfg :: map (fun o => sc_capital cfg + sm_net (s_metrics (fst o))) exits /\
    tv_max_drawdown_history (tv_data t) = fZ 0 :: map (fun o => tv_max_drawdown (tv_data (snd o))) exits.
  Proof.
    intros O N. cbn zeta.
    destruct (metered_ind _ _ _ _ _ _ (fun l s t =>
      let exits := filter (fun o => is_some (s_on_exit (fst o))) l in
      tv_net_equity_history (tv_data t) = sc_capital cfg :: map (fun o => sc_capital cfg + sm_net (s_metrics (fst o))) exits /\
      tv_max_drawdown_history (tv_data t) = fZ 0 :: map (fun o => tv_max_drawdown (tv_data (snd o))) exits) O) as (s1 & t1 & P & R1 & L1 & H).
    - split; reflexivity.
    - intros xs x a a' d d' l RUN ST L (I1 & I2) H. apply tv_step_shape in H. destruct H as (E & _ & _ & _ & H4 & H5).
      apply equity_step_shape in E. destruct E as (_ & _ & _ & EN & _).
      assert (CF : s_config a' = cfg).
      { assert (A' : after cfg c (xs ++ [x]) a') by (eexists; rewrite run_st_app, RUN; cbn [rbind run_st]; rewrite ST; reflexivity).
        apply (tr_cfg _ _ _ _ _ (after_tracks _ _ _ _ A')). }
      cbn zeta. rewrite filter_app. cbn [filter fst]. rewrite H4, H5.
      destruct (s_on_exit a') eqn:EX; cbn [is_some]; rewrite ?app_nil_r; [|split; assumption].
      rewrite !map_app, I1, I2. cbn [map fst snd]. rewrite EN, CF. split; reflexivity.
    - destruct H as [-> | H]; [discriminate|]. rewrite N in H. injection H as <- <-. exact P.
  Qed.
End C38_more.

(** ** C29, C34: the default configuration, the queries on a trade *)
Section Defaults.
  Context {F : Type} {NF : Num F}.
  Local Open Scope num_scope.
  (** With the default configuration a signal acts at the open of the next bar:
      if the newest trade is an open one in its direction, nothing happens;
      otherwise a trade in its direction is opened there.  Every trade is for
      one unit and the account starts at 1000. *)
  Theorem C29_default c sigs x s1 s2 : after (sconfig_default (F:=F)) c sigs s1 -> after sconfig_default c (sigs ++ [x]) s2 ->
    let tick := (c_index c + length sigs)%nat in
    match last sigs None with
    | None => s_trades s2 = s_trades s1
    | Some d => exists t, newest (s_trades s2) = Some t /\ t_dir t = d /\ t_closed t = false /\
        (s_trades s2 = s_trades s1 \/ opened_at t d tick (quote (p_open (c_data c)) tick))
    end /\
    (forall t, In t (s_trades s2) -> t_fill t = Some (fZ 1)) /\
    sm_equity (s_metrics s2) = fZ 1000 + sm_net (s_metrics s2) + sm_open (s_metrics s2).
  Proof.
    intros A1 A2. cbn zeta. pose proof (C33_signal_effect _ _ _ _ _ _ A1 A2) as H. cbn zeta in H. unfold executed in H. cbn [sconfig_default sc_on_close sc_continuous] in H.
    split; [|split].
    - destruct (last sigs None) as [d|]; [|exact H].
      assert (NL : forall (l : list (trade F)) n, newest (l ++ [n]) = Some n) by (intros; apply newest_snoc).
      destruct (newest (s_trades s1)) as [t|] eqn:N.
      + destruct (t_closed t) eqn:TC.
        * destruct H as (n & -> & O). exists n. rewrite NL. repeat split; try apply O. right. exact O.
        * destruct (dir_eqb (t_dir t) d) eqn:D.
          -- exists t. rewrite H, N. destruct (t_dir t), d; try discriminate; repeat split; auto.
          -- destruct H as (t' & _ & n & -> & O). exists n. change [t'; n] with ([t'] ++ [n]). rewrite app_assoc, NL. repeat split; try apply O. right. exact O.
      + destruct H as (n & -> & O). exists n. repeat split; try apply O. right. exact O.
    - intros t I. apply In_nth_error in I. destruct I as [i I]. pose proof (C35_size _ _ _ _ A2 _ _ I) as Z. exact Z.
    - apply (C31_equity _ _ _ _ _ A2).
  Qed.
  (** [is_at_entry] / [is_at_exit] at the current bar are the events of the
      bar, and a trade of the book is active iff it is the open one, the
      newest. *)
  Theorem C34_queries (cfg : sconfig F) c sigs x s t : after cfg c (sigs ++ [x]) s -> In t (s_trades s) ->
    let tick := (c_index c + length sigs)%nat in
    (is_at_entry t tick = true <-> s_on_entry s = Some t) /\
    (is_at_exit t tick = true <-> s_on_exit s = Some t) /\
    (is_active t = true <-> t_exit_tick t = None) /\
    (is_active t = true -> newest (s_trades s) = Some t).
  Proof.
    intros A I. cbn zeta. destruct (C34_events _ _ _ _ _ A t) as [EX EN]. cbn zeta in EX, EN.
    assert (E1 : forall (o : option nat) n, (match o with Some e => (e =? n)%nat | None => false end) = true <-> o = Some n).
    { intros [e|] n; [rewrite Nat.eqb_eq; split; congruence|split; discriminate]. }
    split; [unfold is_at_entry; rewrite E1, EN; tauto|]. split; [unfold is_at_exit; rewrite E1, EX; tauto|].
    apply In_nth_error in I. destruct I as [i I].
    destruct (C28_trades _ _ _ _ A _ _ I) as (et & ep & size & T1 & T2 & T3 & T4 & T5 & T6).
    unfold is_active. rewrite T1. cbn [is_some andb].
    destruct (t_closed t); cbn [negb].
    - destruct (T5 eq_refl) as (xt & xp & X & _). rewrite X. split; [split; discriminate|discriminate].
    - destruct (T6 eq_refl) as (X & _ & L). split; [tauto|]. intros _.
      unfold newest. rewrite <- L. replace (S i - 1)%nat with i by lia. exact I.
  Qed.
End Defaults.

(** ** The hypotheses are met *)
(** The six bars of [ctx6] are complete, so every metrics runs over them. *)
(** A boolean check of [complete] (evaluated, so that no price is normalised). *)
Definition completeb {F} (c : ctx F) (n : nat) : bool :=
  forallb (fun k => forallb (fun col => match nth_error col (c_index c + k) with Some (Some _) => true | _ => false end)
    [p_open (c_data c); p_high (c_data c); p_low (c_data c); p_close (c_data c)]) (seq 0 n).
Lemma completeb_ok {F} (c : ctx F) n : completeb c n = true -> complete c n.
Proof.
  intros H k K col I. unfold completeb in H. rewrite forallb_forall in H. specialize (H k ltac:(apply in_seq; lia)).
  rewrite forallb_forall in H. specialize (H col I). destruct (nth_error col (c_index c + k)) as [[x|]|]; try discriminate. eexists; reflexivity.
Qed.
Lemma ctx6_complete : complete ctx6 6.
Proof. apply completeb_ok. vm_compute. reflexivity. Qed.
Example C89_ex cont oc eq est : exists os, observed cobra_step (cfg_of oc cont eq) (cobra_new (strategy_new (cfg_of oc cont eq)) est None) ctx6 sig6 os /\ length os = 6%nat.
Proof. apply (C89_cobra (cfg_of oc cont eq) est None ctx6 sig6); [exact ctx6_complete|left; reflexivity]. Qed.
(** A dated bar: 2023-11-14. *)
Example C89_dated_ex : let c := mkCtx (mkProvider (qs [1]%Z) (qs [1]%Z) (qs [1]%Z) (qs [1]%Z) (qs [1]%Z) [Some 1700000000000000000%Z] 0 0) 0 0 1 0 true in
  dated c 1 /\ complete c 1 /\ bar_year c = Ok 2023%Z.
Proof.
  split; [|split; [|vm_compute; reflexivity]].
  - intros k K. destruct k; [|lia]. eexists. split; [reflexivity|lia].
  - apply completeb_ok. vm_compute. reflexivity.
Qed.
(** The run of [C89_ex] closes two trades; the spans of C90 are those of bars
    0-2 and 3-4. *)
Example C90_ex : match run (metered cobra_step) ctx6 (strategy_new (cfg_of false true true), cobra_new (strategy_new (cfg_of false true true)) false None) sig6 with
  | Ok os => Some (map (fun sp => length (snd sp)) (spans [] os)) | Panic => None end = Some [3; 2]%nat.
Proof. vm_compute. reflexivity. Qed.
(** C92: over the five bars of [ctx5]. *)
Example C92_ex oc co eq est : finite (sc_capital (cfg5 oc co eq)) /\ real_prices ctx5 /\
  exists os, observed cobra_step (cfg5 oc co eq) (cobra_new (strategy_new (cfg5 oc co eq)) est None) ctx5 sig5 os /\ length os = 5%nat.
Proof.
  split; [eexists; reflexivity|]. split; [exact ctx5_real|].
  apply (C89_cobra (cfg5 oc co eq) est None ctx5 sig5); [|left; reflexivity].
  intros k K col H. do 5 (destruct k as [|k]; [cbn in H; repeat (destruct H as [<-|H]; [eexists; reflexivity|]); contradiction|]). cbn in K. lia.
Qed.
Example C29_default_ex : exists s1 s2, after (sconfig_default (F:=f64)) ctx6 [Some Long] s1 /\ after (sconfig_default (F:=f64)) ctx6 ([Some Long] ++ [None]) s2.
Proof.
  destruct (C28_runs (sconfig_default (F:=f64)) ctx6 [Some Long]) as [s1 A1].
  { intros k K. apply ctx6_priced. cbn in K. lia. }
  destruct (C28_runs (sconfig_default (F:=f64)) ctx6 ([Some Long] ++ [None])) as [s2 A2].
  { intros k K. apply ctx6_priced. cbn in K. lia. }
  exists s1, s2. split; assumption.
Qed.
