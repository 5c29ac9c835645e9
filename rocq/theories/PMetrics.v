(** * PMetrics: strategies observed by a metrics component at every bar. *)
From Verif Require Export PStrategy2.

Section Metered.
  Context {F : Type} {NF : Num F} {M : Type}.
  (** The user-level loop: [strategy.next(signal); metrics.next(&strategy)] at
      every bar; reports both states after each bar. *)
  Definition metered (mstep : ctx F -> M -> strategy F -> res (M * unit))
      (c : ctx F) (sm : strategy F * M) (x : option direction) : res ((strategy F * M) * (strategy F * M)) :=
    '(s, _) <- strategy_step c (fst sm) x ;;
    '(m, _) <- mstep c (snd sm) s ;;
    Ok ((s, m), (s, m)).

  Variable mstep : ctx F -> M -> strategy F -> res (M * unit).

  (** Induction over the bars of a metered run. *)
  Lemma metered_ind cfg (m0 : M) c sigs os (P : list (strategy F * M) -> strategy F -> M -> Prop) :
    run (metered mstep) c (strategy_new cfg, m0) sigs = Ok os ->
    P [] (strategy_new cfg) m0 ->
    (forall xs x s s' m m' l, run_st strategy_step c (strategy_new cfg) xs = Ok (s, repeat tt (length xs)) ->
       strategy_step (ctx_at c (length xs)) s x = Ok (s', tt) ->
       length l = length xs -> P l s m -> mstep (ctx_at c (length xs)) m s' = Ok (m', tt) -> P (l ++ [(s', m')]) s' m') ->
    exists s m, P os s m /\ run_st strategy_step c (strategy_new cfg) sigs = Ok (s, repeat tt (length sigs)) /\
      length os = length sigs /\ (os = [] \/ newest os = Some (s, m)).
  Proof.
    intros R P0 PS. unfold run in R. destruct (run_st (metered mstep) c (strategy_new cfg, m0) sigs) as [[sf os']|] eqn:E; [|discriminate].
    cbn in R. injection R as ->.
    assert (G : exists s m, sf = (s, m) /\ P os s m /\ run_st strategy_step c (strategy_new cfg) sigs = Ok (s, repeat tt (length sigs)) /\
      length os = length sigs /\ (os = [] \/ newest os = Some (s, m))).
    { revert sf os E. induction sigs as [|x sigs IH] using rev_ind; intros sf os E.
      - cbn in E. injection E as <- <-. do 2 eexists. split; [reflexivity|]. split; [exact P0|]. split; [reflexivity|]. split; [reflexivity|auto].
      - rewrite run_st_app in E. destruct (run_st (metered mstep) c (strategy_new cfg, m0) sigs) as [[s1 o1]|] eqn:E1; [|discriminate].
        destruct (IH _ _ eq_refl) as (s & m & -> & Pm & Rs & L & _). cbn [rbind run_st] in E.
        unfold metered at 1 in E. cbn [fst snd] in E.
        destruct (strategy_step (ctx_at c (length sigs)) s x) as [[s' []]|] eqn:ES; [|discriminate]. cbn [rbind] in E.
        destruct (mstep (ctx_at c (length sigs)) m s') as [[m' []]|] eqn:EM; [|discriminate]. cbn [rbind] in E.
        injection E as <- <-. exists s', m'. split; [reflexivity|]. split; [eapply PS; eassumption|]. split; [|split; [|right; apply newest_snoc]].
        + rewrite run_st_app, Rs. cbn [rbind run_st]. rewrite ES. cbn [rbind].
          rewrite app_length, repeat_app. reflexivity.
        + rewrite !app_length, L. reflexivity. }
    destruct G as (s & m & -> & G). exists s, m. exact G.
  Qed.
End Metered.

Section Totals.
  Context {F : Type} {NF : Num F}.
  Local Open Scope num_scope.
  (** Between two bars the totals change only if a trade was closed. *)
  Definition same_totals (a b : smetrics F) : Prop :=
    sm_net b = sm_net a /\ sm_gross_profit b = sm_gross_profit a /\ sm_gross_loss b = sm_gross_loss a /\
    sm_closed b = sm_closed a /\ sm_winning b = sm_winning a /\ sm_losing b = sm_losing a /\
    sm_long_net b = sm_long_net a /\ sm_short_net b = sm_short_net a.

  Lemma totals_of ps a b : tallied ps a -> tallied ps b -> same_totals a b.
  Proof. intros [] []. unfold same_totals. repeat split; congruence. Qed.

  Lemma step_totals cfg c sigs x s s' os : run_st strategy_step c (strategy_new cfg) sigs = Ok (s, os) ->
    strategy_step (ctx_at c (length sigs)) s x = Ok (s', tt) ->
    match s_on_exit s' with
    | None => same_totals (s_metrics s) (s_metrics s')
    | Some t => sm_closed (s_metrics s') = S (sm_closed (s_metrics s)) /\ t_closed t = true /\
                sm_net (s_metrics s') = sm_net (s_metrics s) + t_pnl t /\
                exists e, t_entry_price t = Some e
    end.
  Proof.
    intros R ST. pose proof (run_tracks _ _ _ _ _ R) as T.
    destruct (step_tracks _ _ _ _ x T) as [G _]. destruct (G _ ST) as (T' & _ & EX). clear G.
    rewrite EX. unfold event. pose proof (tr_tally _ _ _ _ _ T) as Y. pose proof (tr_tally _ _ _ _ _ T') as Y'.
    rewrite pos_at_snoc in Y'. destruct (new_order cfg (c_data c) (c_index c) sigs x) as [|o ol]; [eapply totals_of; eassumption|].
    set (ps := pos_at cfg (c_data c) (c_index c) sigs) in *.
    assert (OPEN : forall p, pos_closed p = false -> forall m, tallied (ps ++ [p]) m -> same_totals (s_metrics s) m).
    { intros p C m [] . destruct Y. rewrite ?profits_open, ?side_open in * by exact C. unfold same_totals. repeat split; congruence. }
    assert (LEAVE : forall old p m, ps = old ++ [p] -> pos_closed p = false -> tallied (old ++ [leave p o]) m ->
       sm_closed m = S (sm_closed (s_metrics s)) /\ sm_net m = sm_net (s_metrics s) + realised (leave p o)).
    { intros old p m E C [? ? ? ?]. destruct Y. rewrite E in *. rewrite profits_open in * by exact C.
      rewrite profits_closed in * by (destruct o as [[]]; reflexivity).
      rewrite ta_n, ta_n0, ta_net, ta_net0, app_length, total_snoc. cbn [length]. split; [lia|reflexivity]. }
    destruct (place_cases cfg ps o) as [(E & -> & _ & _)|(old & p & E0 & CL & H)].
    - rewrite E in Y'. cbn [option_map]. eapply OPEN; [|exact Y']. apply enter_closed.
    - destruct H as [(_ & E & -> & _)|(D & -> & H)].
      + rewrite E in Y'. cbn. eapply totals_of; eassumption.
      + cbn [option_map]. assert (TC : t_closed (as_trade (leave p o)) = true) by (destruct o as [[]]; reflexivity).
        assert (TE : exists e, t_entry_price (as_trade (leave p o)) = Some e) by (eexists; reflexivity).
        assert (TP : t_pnl (as_trade (leave p o)) = realised (leave p o)) by reflexivity. rewrite TP.
        destruct H as [(CO & E & _)|(CO & E & _)]; rewrite E in Y'.
        * assert (Y2 : tallied (old ++ [leave p o]) (metrics_set_open (s_metrics s') (fZ 0))).
          { rewrite app_assoc in Y'. destruct Y'. rewrite profits_open, ?side_open in * by apply enter_closed.
            split; cbn; auto. }
          destruct (LEAVE old p _ E0 CL Y2) as [A1 A2]. cbn in A1, A2. auto.
        * destruct (LEAVE old p _ E0 CL Y') as [A1 A2]. auto.
  Qed.
End Totals.
