(** * PropMetrics: properties C37-C40, the metrics components. *)
From Verif Require Export PMetrics PropStrategy PropStats PIeee.
(* PIeee brings Flocq's names; [after], [profit_at], ... are from PropStrategy. *)

Section Statements.
  Context {F : Type} {NF : Num F} {M : Type}.
  (** [os] are the states (strategy, metrics) after each bar of a strategy with
      configuration [cfg] given the signals [sigs] and observed at every bar by
      a metrics component started as [m0]. *)
  Definition observed (mstep : ctx F -> M -> strategy F -> res (M * unit)) (cfg : sconfig F) (m0 : M)
      (c : ctx F) (sigs : list (option direction)) (os : list (strategy F * M)) : Prop :=
    run (metered mstep) c (strategy_new cfg, m0) sigs = Ok os.
  Local Open Scope num_scope.
  (** [m] is a smallest / largest of the values that are not NaN. *)
  Definition least_of (m : F) (l : list F) : Prop :=
    In m l /\ fisnan m = false /\ forall x, In x l -> fisnan x = true \/ (m <=? x) = true.
  Definition greatest_of (m : F) (l : list F) : Prop :=
    In m l /\ fisnan m = false /\ forall x, In x l -> fisnan x = true \/ (x <=? m) = true.

  Context {OF : OrdNum F}.
  Lemma least_of_snoc m l x : least_of m l -> least_of (fmin m x) (l ++ [x]).
  Proof.
    intros (I & N & L). split; [|split].
    - destruct (fmin_cases m x) as [-> | ->]; apply in_or_app; [left; exact I|right; left; reflexivity].
    - apply fmin_nonnan; left; exact N.
    - intros y Hy. apply in_app_or in Hy. destruct Hy as [Hy|[<-|[]]].
      + destruct (L y Hy) as [A|A]; [left; exact A|right]. eapply le_trans; [apply fmin_le_l; exact N|exact A].
      + destruct (fisnan x) eqn:Nx; [left; reflexivity|right]. apply fmin_le_r; exact Nx.
  Qed.
  Lemma greatest_of_snoc m l x : greatest_of m l -> greatest_of (fmax m x) (l ++ [x]).
  Proof.
    intros (I & N & L). split; [|split].
    - destruct (fmax_cases m x) as [-> | ->]; apply in_or_app; [left; exact I|right; left; reflexivity].
    - apply fmax_nonnan; left; exact N.
    - intros y Hy. apply in_app_or in Hy. destruct Hy as [Hy|[<-|[]]].
      + destruct (L y Hy) as [A|A]; [left; exact A|right]. eapply le_trans; [exact A|apply fmax_ge_l; exact N].
      + destruct (fisnan x) eqn:Nx; [left; reflexivity|right]. apply fmax_ge_r; exact Nx.
  Qed.
  Lemma greatest_of_snoc' m l x : greatest_of m l -> greatest_of (fmax x m) (l ++ [x]).
  Proof.
    intros (I & N & L). split; [|split].
    - destruct (fmax_cases x m) as [-> | ->]; apply in_or_app; [right; left; reflexivity|left; exact I].
    - apply fmax_nonnan; right; exact N.
    - intros y Hy. apply in_app_or in Hy. destruct Hy as [Hy|[<-|[]]].
      + destruct (L y Hy) as [A|A]; [left; exact A|right]. eapply le_trans; [exact A|apply fmax_ge_r; exact N].
      + destruct (fisnan x) eqn:Nx; [left; reflexivity|right]. apply fmax_ge_l; exact Nx.
  Qed.
  Lemma least_of_snoc' m l x : least_of m l -> least_of (fmin x m) (l ++ [x]).
  Proof.
    intros (I & N & L). split; [|split].
    - destruct (fmin_cases x m) as [-> | ->]; apply in_or_app; [right; left; reflexivity|left; exact I].
    - apply fmin_nonnan; right; exact N.
    - intros y Hy. apply in_app_or in Hy. destruct Hy as [Hy|[<-|[]]].
      + destruct (L y Hy) as [A|A]; [left; exact A|right]. eapply le_trans; [apply fmin_le_r; exact N|exact A].
      + destruct (fisnan x) eqn:Nx; [left; reflexivity|right]. apply fmin_le_l; exact Nx.
  Qed.
  Lemma least_of_dup m l x : least_of m l -> In x l -> least_of m (l ++ [x]).
  Proof.
    intros (I & N & L) Hx. split; [apply in_or_app; left; exact I|]. split; [exact N|].
    intros y Hy. apply in_app_or in Hy. destruct Hy as [Hy|[<-|[]]]; auto.
  Qed.
  Lemma greatest_of_dup m l x : greatest_of m l -> In x l -> greatest_of m (l ++ [x]).
  Proof.
    intros (I & N & L) Hx. split; [apply in_or_app; left; exact I|]. split; [exact N|].
    intros y Hy. apply in_app_or in Hy. destruct Hy as [Hy|[<-|[]]]; auto.
  Qed.
End Statements.

(** ** The equity tracker inside any of the metrics. *)
Section Equity.
  Context {F : Type} {NF : Num F}.
  Local Open Scope num_scope.
  (** Worst and best price of a bar for a trade. *)
  Definition worst (t : trade F) (lo hi : F) : F := match t_dir t with Long => lo | Short => hi end.
  Definition best_price (t : trade F) (lo hi : F) : F := match t_dir t with Long => hi | Short => lo end.

  (** One bar of [EquityMetrics]. *)
  Lemma equity_step_shape c e s e' : equity_step c e s = Ok (e', tt) ->
    let net := match s_on_exit s with Some _ => sc_capital (s_config s) + sm_net (s_metrics s) | None => e_net e end in
    e_equity e' = sm_equity (s_metrics s) /\
    e_equity_min e' = fmin (e_equity_min e) (sm_equity (s_metrics s)) /\
    e_equity_max e' = fmax (e_equity_max e) (sm_equity (s_metrics s)) /\
    e_net e' = net /\
    e_net_min e' = match s_on_exit s with Some _ => fmin (e_net_min e) net | None => e_net_min e end /\
    e_net_max e' = match s_on_exit s with Some _ => fmax (e_net_max e) net | None => e_net_max e end /\
    e_bar_min e' = net + e_bop_min e' /\ e_bar_max e' = net + e_bop_max e' /\
    match newest (s_trades s) with
    | Some t =>
        if t_closed t then e_bop_min e' = e_bop_min e /\ e_bop_max e' = e_bop_max e
        else exists lo hi ep f,
          nth_error (p_low (c_data c)) (c_index c) = Some (Some lo) /\
          nth_error (p_high (c_data c)) (c_index c) = Some (Some hi) /\
          t_entry_price t = Some ep /\ t_fill t = Some f /\
          e_bop_min e' = profit_at t ep f (worst t lo hi) /\ e_bop_max e' = profit_at t ep f (best_price t lo hi)
    | None => e_bop_min e' = e_bop_min e /\ e_bop_max e' = e_bop_max e
    end.
  Proof.
    unfold equity_step. rewrite split_last_newest. intros H. cbn zeta.
    assert (PA : forall t p f ep, t_fill t = Some f -> t_entry_price t = Some ep -> trade_cur_pnl t p = Ok (profit_at t ep f p)).
    { intros t p f ep Hf He. unfold trade_cur_pnl. rewrite Hf, He. cbn. unfold profit_at, trade_pnl.
      destruct (t_dir t); reflexivity. }
    destruct (newest (s_trades s)) as [t|]; cbn [option_map] in H.
    - destruct (t_closed t) eqn:TC.
      + destruct (s_on_exit s); cbn in H; injection H as <-; cbn; repeat split.
      + unfold bar_low, bar_high, vget in H.
        destruct (nth_error (p_low (c_data c)) (c_index c)) as [[lo|]|]; cbn [unwrap rbind] in H;
          try (destruct (s_on_exit s); discriminate).
        destruct (nth_error (p_high (c_data c)) (c_index c)) as [[hi|]|]; cbn [unwrap rbind] in H;
          try (destruct (s_on_exit s); discriminate).
        destruct (t_fill t) as [f|] eqn:TF.
        2:{ exfalso. unfold trade_cur_pnl in H. rewrite TF in H. destruct (t_dir t); cbn in H; destruct (s_on_exit s); discriminate. }
        destruct (t_entry_price t) as [ep|] eqn:TE.
        2:{ exfalso. unfold trade_cur_pnl in H. rewrite TF, TE in H. destruct (t_dir t); cbn in H; destruct (s_on_exit s); discriminate. }
        assert (W : (let '(a, b) := match t_dir t with Short => (hi, lo) | Long => (lo, hi) end in
                     (a, b)) = (worst t lo hi, best_price t lo hi)).
        { unfold worst, best_price. destruct (t_dir t); reflexivity. }
        destruct (match t_dir t with Short => (hi, lo) | Long => (lo, hi) end) as [a b]. injection W as -> ->.
        rewrite !(PA _ _ _ _ TF TE) in H. cbn [rbind] in H.
        destruct (s_on_exit s); cbn in H; injection H as <-; cbn;
          (repeat split; exists lo, hi, ep, f; repeat split).
    - destruct (s_on_exit s); cbn in H; injection H as <-; cbn; repeat split.
  Qed.

  Context {OF : OrdNum F}.
  Record equity_ok (cfg : sconfig F) (nets eqs : list F) (s : strategy F) (e : equity F) : Prop := {
    eo_cfg : s_config s = cfg;
    eo_net : e_net e = if (sm_closed (s_metrics s) =? 0)%nat then sc_capital cfg else sc_capital cfg + sm_net (s_metrics s);
    eo_last : newest (sc_capital cfg :: nets) = Some (e_net e);
    eo_nmin : least_of (e_net_min e) (sc_capital cfg :: nets);
    eo_nmax : greatest_of (e_net_max e) (sc_capital cfg :: nets);
    eo_emin : least_of (e_equity_min e) (sc_capital cfg :: eqs);
    eo_emax : greatest_of (e_equity_max e) (sc_capital cfg :: eqs)
  }.
  Lemma equity_ok_new cfg : fisnan (sc_capital cfg) = false -> equity_ok cfg [] [] (strategy_new cfg) (equity_new (sc_capital cfg)).
  Proof.
    intros N. assert (L : least_of (sc_capital cfg) [sc_capital cfg]).
    { split; [left; reflexivity|]. split; [exact N|]. intros x [<-|[]]. right. apply le_refl; exact N. }
    assert (G : greatest_of (sc_capital cfg) [sc_capital cfg]).
    { split; [left; reflexivity|]. split; [exact N|]. intros x [<-|[]]. right. apply le_refl; exact N. }
    split; cbn; auto.
  Qed.
  Lemma equity_ok_step cfg c nets eqs sigs x s s' e e' os :
    run_st strategy_step c (strategy_new cfg) sigs = Ok (s, os) ->
    strategy_step (ctx_at c (length sigs)) s x = Ok (s', tt) ->
    equity_ok cfg nets eqs s e -> equity_step (ctx_at c (length sigs)) e s' = Ok (e', tt) ->
    equity_ok cfg (nets ++ [e_net e']) (eqs ++ [e_equity e']) s' e'.
  Proof.
    intros R ST [] H. pose proof (step_totals _ _ _ _ _ _ _ R ST) as TT.
    assert (CF : s_config s' = cfg).
    { unfold strategy_step in ST. destruct (bar_open (ctx_at c (length sigs))); [|discriminate]. cbn [rbind] in ST.
      destruct (bar_close (ctx_at c (length sigs))); [|discriminate]. cbn [rbind] in ST.
      match type of ST with rbind ?r _ = _ => destruct r as [[[[[trs m] en] ex] un]|] end; [|discriminate]. cbn [rbind] in ST.
      match type of ST with rbind ?r _ = _ => destruct r as [m1|] end; [|discriminate]. cbn [rbind] in ST.
      injection ST as <-. exact eo_cfg0. }
    destruct (equity_step_shape _ _ _ _ H) as (E1 & E2 & E3 & E4 & E5 & E6 & _).
    assert (NL : forall (A : Type) (l : list A) a y, newest (a :: l ++ [y]) = Some y).
    { intros A l a y. rewrite app_comm_cons. apply newest_snoc. }
    rewrite E1, E4. rewrite !CF in *.
    assert (IN : In (e_net e) (sc_capital cfg :: nets)) by (unfold newest in eo_last0; eapply nth_error_In; exact eo_last0).
    destruct (s_on_exit s') as [t|] eqn:EX.
    - destruct TT as (TC & _ & TN & _). split.
      + exact CF.
      + rewrite E4, TC. reflexivity.
      + rewrite NL, E4. reflexivity.
      + rewrite E5. apply (least_of_snoc _ (sc_capital cfg :: nets)). exact eo_nmin0.
      + rewrite E6. apply (greatest_of_snoc _ (sc_capital cfg :: nets)). exact eo_nmax0.
      + rewrite E2. apply (least_of_snoc _ (sc_capital cfg :: eqs)). exact eo_emin0.
      + rewrite E3. apply (greatest_of_snoc _ (sc_capital cfg :: eqs)). exact eo_emax0.
    - destruct TT as (TN & _ & _ & TC & _). split.
      + exact CF.
      + rewrite E4, TC, TN. exact eo_net0.
      + rewrite NL, E4. reflexivity.
      + rewrite E5. apply (least_of_dup _ (sc_capital cfg :: nets)); assumption.
      + rewrite E6. apply (greatest_of_dup _ (sc_capital cfg :: nets)); assumption.
      + rewrite E2. apply (least_of_snoc _ (sc_capital cfg :: eqs)). exact eo_emin0.
      + rewrite E3. apply (greatest_of_snoc _ (sc_capital cfg :: eqs)). exact eo_emax0.
  Qed.
End Equity.

(** ** C37 *)
Section C37.
  Context {F : Type} {NF : Num F} {OF : OrdNum F}.
  Local Open Scope num_scope.
  Theorem C37_extremes (cfg : sconfig F) c sigs os s e : fisnan (sc_capital cfg) = false ->
    observed equity_step cfg (equity_new (sc_capital cfg)) c sigs os -> newest os = Some (s, e) ->
    let k := sc_capital cfg in let m := s_metrics s in
    let nets := k :: map (fun o => e_net (snd o)) os in
    let eqs := k :: map (fun o => e_equity (snd o)) os in
    e_equity e = sm_equity m /\
    e_net e = (if (sm_closed m =? 0)%nat then k else k + sm_net m) /\
    least_of (e_net_min e) nets /\ greatest_of (e_net_max e) nets /\
    least_of (e_equity_min e) eqs /\ greatest_of (e_equity_max e) eqs.
  Proof.
    intros NK O N. cbn zeta.
    destruct (metered_ind _ _ _ _ _ _ (fun l s e =>
       equity_ok cfg (map (fun o => e_net (snd o)) l) (map (fun o => e_equity (snd o)) l) s e /\
       (l <> [] -> e_equity e = sm_equity (s_metrics s))) O) as (s1 & e1 & [P1 P2] & R1 & L1 & H).
    - split; [apply equity_ok_new; exact NK|congruence].
    - intros xs x a a' b b' l R ST L [I _] H. rewrite !map_app. cbn [map snd]. split.
      + eapply equity_ok_step; eassumption.
      + intros _. apply equity_step_shape in H. tauto.
    - destruct H as [-> | H]; [discriminate|]. rewrite N in H. injection H as <- <-. destruct P1.
      split; [apply P2; intros ->; discriminate|]. auto.
  Qed.

  (** While a trade is open, the per-bar band is net equity plus the trade's
      profit at the bar's worst and best price. *)
  Theorem C37_band (cfg : sconfig F) c sigs os s e t :
    observed equity_step cfg (equity_new (sc_capital cfg)) c sigs os -> newest os = Some (s, e) ->
    newest (s_trades s) = Some t -> t_closed t = false ->
    let i := (c_index c + length sigs - 1)%nat in
    exists lo hi ep f,
      nth_error (p_low (c_data c)) i = Some (Some lo) /\ nth_error (p_high (c_data c)) i = Some (Some hi) /\
      t_entry_price t = Some ep /\ t_fill t = Some f /\
      e_bar_min e = e_net e + profit_at t ep f (worst t lo hi) /\
      e_bar_max e = e_net e + profit_at t ep f (best_price t lo hi).
  Proof.
    intros O N NT TC. cbn zeta.
    destruct (metered_ind _ _ _ _ _ _ (fun l s e => l <> [] -> forall t, newest (s_trades s) = Some t -> t_closed t = false ->
      exists lo hi ep f,
      nth_error (p_low (c_data c)) (c_index c + length l - 1) = Some (Some lo) /\ nth_error (p_high (c_data c)) (c_index c + length l - 1) = Some (Some hi) /\
      t_entry_price t = Some ep /\ t_fill t = Some f /\
      e_bar_min e = e_net e + profit_at t ep f (worst t lo hi) /\
      e_bar_max e = e_net e + profit_at t ep f (best_price t lo hi)) O) as (s1 & e1 & P & R1 & L1 & H).
    - congruence.
    - intros xs x a a' b b' l R ST L _ H _ t0 N0 C0. apply equity_step_shape in H.
      destruct H as (_ & _ & _ & E4 & _ & _ & E7 & E8 & E9). rewrite N0, C0 in E9.
      destruct E9 as (lo & hi & ep & f & A1 & A2 & A3 & A4 & A5 & A6).
      exists lo, hi, ep, f. rewrite ctx_at_data, ctx_at_index in A1, A2. rewrite app_length. cbn [length].
      replace (c_index c + (length l + 1) - 1)%nat with (c_index c + length xs)%nat by lia.
      rewrite E7, E8, E4, A5, A6. auto 10.
    - destruct H as [-> | H]; [discriminate|]. rewrite N in H. injection H as <- <-.
      rewrite <- L1. apply P; auto. intros ->; discriminate.
  Qed.
End C37.

Section C37_exact.
  Open Scope R_scope.
  (** In exact arithmetic, on a bar with low <= close <= high, the band
      contains the equity. *)
  Theorem C37_bracket (cfg : sconfig xr) c sigs x os s e t lo hi cl : finite (sc_capital cfg) -> real_prices c ->
    observed equity_step cfg (equity_new (sc_capital cfg)) c (sigs ++ [x]) os -> newest os = Some (s, e) ->
    newest (s_trades s) = Some t -> t_closed t = false ->
    let i := (c_index c + length sigs)%nat in
    nth_error (p_low (c_data c)) i = Some (Some (Fin lo)) -> nth_error (p_high (c_data c)) i = Some (Some (Fin hi)) ->
    nth_error (p_close (c_data c)) i = Some (Some (Fin cl)) -> lo <= cl <= hi ->
    exists a b z, e_bar_min e = Fin a /\ e_bar_max e = Fin b /\ e_equity e = Fin z /\ a <= z <= b.
  Proof.
    intros K RP O N NT TC. cbn zeta. intros Hl Hh Hc B.
    assert (NK : fisnan (sc_capital cfg) = false) by (destruct K as [k ->]; reflexivity).
    destruct (C37_extremes cfg c _ os s e NK O N) as (EE & EN & _).
    destruct (C37_band cfg c _ os s e t O N NT TC) as (lo' & hi' & ep & f & A1 & A2 & A3 & A4 & A5 & A6).
    rewrite app_length in A1, A2. cbn [length] in A1, A2.
    replace (c_index c + (length sigs + 1) - 1)%nat with (c_index c + length sigs)%nat in A1, A2 by lia.
    rewrite Hl in A1. rewrite Hh in A2. injection A1 as <-. injection A2 as <-.
    assert (AF : after cfg c (sigs ++ [x]) s).
    { destruct (metered_ind _ _ _ _ _ _ (fun l s e => True) O) as (s1 & e1 & _ & R1 & L1 & H); [exact I|auto|].
      destruct H as [-> | H]; [discriminate|]. rewrite N in H. injection H as <- <-. eexists; exact R1. }
    destruct (C31_equity cfg c sigs x s AF) as [EQ OP]. rewrite NT, TC in OP.
    destruct OP as (ep' & f' & B3 & B4 & B5). rewrite A3 in B3. rewrite A4 in B4. injection B3 as <-. injection B4 as <-.
    unfold quote in B5. rewrite Hc in B5.
    (* finiteness *)
    pose proof (after_tracks _ _ _ _ AF) as T. pose proof (fin_pos_at cfg c (sigs ++ [x]) K RP) as FP.
    pose proof (tr_trades _ _ _ _ _ T) as TT. rewrite TT, newest_map in NT.
    destruct (newest (pos_at cfg (c_data c) (c_index c) (sigs ++ [x]))) as [p|] eqn:NP; [|discriminate].
    cbn in NT. injection NT as <-. cbn in A3, A4. injection A3 as <-. injection A4 as <-.
    assert (FPp : fin_pos p).
    { rewrite Forall_forall in FP. apply FP. unfold newest in NP. eapply nth_error_In; exact NP. }
    destruct FPp as ([pe PE] & [sz SZ] & _).
    assert (SZ0 : 0 <= sz).
    { destruct (pos_at_sane cfg (c_data c) (c_index c) (sigs ++ [x])) as [SA _].
      unfold newest in NP. pose proof (sn_size _ _ _ _ SA _ _ NP) as Z. rewrite SZ in Z. unfold size_for in Z.
      destruct (sc_with_equity cfg); [|injection Z as ->; lra].
      assert (FF : Forall fin_pos (firstn (length (pos_at cfg (c_data c) (c_index c) (sigs ++ [x])) - 1) (pos_at cfg (c_data c) (c_index c) (sigs ++ [x])))).
      { apply Forall_forall. intros a Ha. apply firstn_In in Ha. rewrite Forall_forall in FP. auto. }
      destruct K as [k Kk]. destruct (fin_total _ (fin_profits _ FF)) as (r & Er & _). rewrite Er, Kk, PE in Z.
      rewrite !fin_Z, !fin_add, !fin_le in Z.
      destruct (Rleb_spec (k + r + 0) 0); cbn [orb] in Z; [injection Z as ->; lra|].
      destruct (Rleb_spec pe 0); [injection Z as ->; lra|]. rewrite fin_div in Z by lra. injection Z as ->.
      apply Rmult_le_pos; [lra|]. left. apply Rinv_0_lt_compat. lra. }
    assert (FN : finite (sm_net (s_metrics s))).
    { rewrite (ta_net _ _ (tr_tally _ _ _ _ _ T)). destruct (fin_total _ (fin_profits _ FP)) as (r & -> & _). eexists; reflexivity. }
    destruct FN as [nt NTT]. destruct K as [k Kk].
    assert (N0 : sm_closed (s_metrics s) = 0%nat -> nt = 0).
    { intros C0. rewrite (ta_n _ _ (tr_tally _ _ _ _ _ T)) in C0. rewrite (ta_net _ _ (tr_tally _ _ _ _ _ T)) in NTT.
      destruct (profits (pos_at cfg (c_data c) (c_index c) (sigs ++ [x]))); [|discriminate]. cbn in NTT. injection NTT as <-. reflexivity. }
    assert (EN' : e_net e = Fin (k + nt)).
    { rewrite EN, Kk, NTT. destruct (Nat.eqb_spec (sm_closed (s_metrics s)) 0) as [Z|Z]; [|reflexivity]. rewrite (N0 Z). f_equal. lra. }
    rewrite EE, EQ, A5, A6, B5, EN', Kk, NTT. unfold profit_at, worst, best_price. cbn [t_dir as_trade]. rewrite PE, SZ.
    destruct (pos_dir p); cbn [sign]; rewrite !fin_Z, !fin_sub, !fin_mul, !fin_add; do 3 eexists;
      (split; [reflexivity|split; [reflexivity|split; [reflexivity|]]]); nra.
  Qed.
End C37_exact.

(** ** C38, C39 *)
Section Tv.
  Context {F : Type} {NF : Num F}.
  Local Open Scope num_scope.
  Lemma tv_step_shape c t s t' : tv_step c t s = Ok (t', tt) ->
    let d := tv_data t in let d' := tv_data t' in let e' := tv_eqm t' in
    equity_step c (tv_eqm t) s = Ok (e', tt) /\
    tv_max_drawdown d' = fmax (e_net_max e' - e_bar_min e') (tv_max_drawdown d) /\
    tv_max_run_up d' = fmax (e_bar_max e' - e_net_min e') (tv_max_run_up d) /\
    tv_equity_history d' = tv_equity_history d ++ [e_equity e'] /\
    tv_net_equity_history d' = (if is_some (s_on_exit s) then tv_net_equity_history d ++ [e_net e'] else tv_net_equity_history d) /\
    tv_max_drawdown_history d' = (if is_some (s_on_exit s) then tv_max_drawdown_history d ++ [tv_max_drawdown d'] else tv_max_drawdown_history d).
  Proof.
    unfold tv_step. destruct (equity_step c (tv_eqm t) s) as [[e []]|] eqn:E; [|discriminate]. cbn [rbind].
    destruct (sstdev_next (tv_neg_stdev t) (fabs (fmin (fZ 0) (r_delta (returns_next (tv_returns t) (e_net e)))))) as [nst nsd].
    intros H; injection H as <-. cbn. repeat split.
  Qed.
End Tv.

Section C38.
  Context {F : Type} {NF : Num F} {OF : OrdNum F}.
  Local Open Scope num_scope.
  Definition tv_excursions (os : list (strategy F * tvmetrics F)) (f : equity F -> F) : list F := map (fun o => f (tv_eqm (snd o))) os.

  (** Max drawdown is the largest of 0 and all bars' drops from the peak net
      equity, max run-up the largest of 0 and all bars' rises from the trough
      (NaN excursions ignored); the histories record one value per bar resp.
      one per closed trade. *)
  Theorem C38_running_max (cfg : sconfig F) rfr c sigs os s t :
    observed tv_step cfg (tv_new (strategy_new cfg) rfr) c sigs os -> newest os = Some (s, t) ->
    let d := tv_data t in
    greatest_of (tv_max_drawdown d) (fZ 0 :: tv_excursions os (fun e => e_net_max e - e_bar_min e)) /\
    greatest_of (tv_max_run_up d) (fZ 0 :: tv_excursions os (fun e => e_bar_max e - e_net_min e)) /\
    tv_equity_history d = sc_capital cfg :: map (fun o => sm_equity (s_metrics (fst o))) os /\
    length (tv_equity_history d) = S (length sigs) /\
    length (tv_net_equity_history d) = S (sm_closed (s_metrics s)) /\
    length (tv_max_drawdown_history d) = S (sm_closed (s_metrics s)).
  Proof.
    intros O N. cbn zeta.
    destruct (metered_ind _ _ _ _ _ _ (fun l s t => let d := tv_data t in
        greatest_of (tv_max_drawdown d) (fZ 0 :: tv_excursions l (fun e => e_net_max e - e_bar_min e)) /\
        greatest_of (tv_max_run_up d) (fZ 0 :: tv_excursions l (fun e => e_bar_max e - e_net_min e)) /\
        tv_equity_history d = sc_capital cfg :: map (fun o => sm_equity (s_metrics (fst o))) l /\
        length (tv_net_equity_history d) = S (sm_closed (s_metrics s)) /\
        length (tv_max_drawdown_history d) = S (sm_closed (s_metrics s))) O) as (s1 & t1 & P & R1 & L1 & H).
    - cbn zeta. assert (G : greatest_of (F:=F) (fZ 0) [fZ 0]).
      { split; [left; reflexivity|]. split; [apply nan_fZ|]. intros y [<-|[]]. right. apply le_refl, nan_fZ. }
      cbn. auto.
    - intros xs x a a' b b' l R ST L (I1 & I2 & I3 & I4 & I5) H. cbn zeta.
      pose proof (step_totals _ _ _ _ _ _ _ R ST) as TT.
      apply tv_step_shape in H. destruct H as (E & H1 & H2 & H3 & H4 & H5).
      apply equity_step_shape in E. destruct E as (EE & _).
      unfold tv_excursions in *. rewrite !map_app. cbn [map snd fst]. rewrite H1 at 1. rewrite H2, H3, H4, H5.
      split; [apply (greatest_of_snoc' _ (fZ 0 :: map _ l)); exact I1|].
      split; [apply (greatest_of_snoc' _ (fZ 0 :: map _ l)); exact I2|].
      split; [rewrite I3, EE; reflexivity|].
      destruct (s_on_exit a') as [tr|]; cbn [is_some].
      + destruct TT as (TC & _). rewrite !app_length, I4, I5, TC. cbn. split; lia.
      + destruct TT as (_ & _ & _ & TC & _). rewrite TC. auto.
    - destruct H as [-> | H]; [discriminate|]. rewrite N in H. injection H as <- <-. cbn zeta in P.
      destruct P as (P1 & P2 & P3 & P4 & P5). repeat split; auto; try apply P1; try apply P2.
      rewrite P3. cbn [length]. rewrite map_length, L1. reflexivity.
  Qed.

  (** Never NaN, never negative, never decreasing from one bar to the next. *)
  Theorem C38_monotone (cfg : sconfig F) rfr c sigs os :
    observed tv_step cfg (tv_new (strategy_new cfg) rfr) c sigs os ->
    let dd o := tv_max_drawdown (tv_data (snd o)) in
    let ru o := tv_max_run_up (tv_data (snd o)) in
    (forall o, In o os -> (fZ 0 <=? dd o) = true /\ (fZ 0 <=? ru o) = true) /\
    (forall i o1 o2, nth_error os i = Some o1 -> nth_error os (S i) = Some o2 ->
       (dd o1 <=? dd o2) = true /\ (ru o1 <=? ru o2) = true).
  Proof.
    intros O. cbn zeta.
    destruct (metered_ind _ _ _ _ _ _ (fun l s t =>
        (newest l = Some (s, t) \/ (l = [] /\ t = tv_new (strategy_new cfg) rfr)) /\
        (fZ 0 <=? tv_max_drawdown (tv_data t)) = true /\ (fZ 0 <=? tv_max_run_up (tv_data t)) = true /\
        (forall o, In o l -> (fZ 0 <=? tv_max_drawdown (tv_data (snd o))) = true /\ (fZ 0 <=? tv_max_run_up (tv_data (snd o))) = true) /\
        (forall i o1 o2, nth_error l i = Some o1 -> nth_error l (S i) = Some o2 ->
          (tv_max_drawdown (tv_data (snd o1)) <=? tv_max_drawdown (tv_data (snd o2))) = true /\
          (tv_max_run_up (tv_data (snd o1)) <=? tv_max_run_up (tv_data (snd o2))) = true)) O) as (s1 & t1 & P & R1 & L1 & H).
    - split; [right; auto|]. cbn. split; [apply le_refl, nan_fZ|]. split; [apply le_refl, nan_fZ|]. split; [intros o []|].
      intros i o1 o2 H; destruct i; discriminate.
    - intros xs x a a' b b' l R ST L (I0 & I1 & I2 & I3 & I4) H.
      apply tv_step_shape in H. destruct H as (E & H1 & H2 & _).
      assert (M1 : (tv_max_drawdown (tv_data b) <=? tv_max_drawdown (tv_data b')) = true)
        by (rewrite H1; apply fmax_ge_r; apply (le_nonnan _ _ I1)).
      assert (M2 : (tv_max_run_up (tv_data b) <=? tv_max_run_up (tv_data b')) = true)
        by (rewrite H2; apply fmax_ge_r; apply (le_nonnan _ _ I2)).
      assert (Z1 : (fZ 0 <=? tv_max_drawdown (tv_data b')) = true) by exact (Laws.le_trans _ _ _ I1 M1).
      assert (Z2 : (fZ 0 <=? tv_max_run_up (tv_data b')) = true) by exact (Laws.le_trans _ _ _ I2 M2).
      split; [left; apply newest_snoc|]. split; [exact Z1|]. split; [exact Z2|]. split.
      + intros o Ho. apply in_app_or in Ho. destruct Ho as [Ho|[<-|[]]]; [apply I3; exact Ho|cbn; auto].
      + intros i o1 o2 N1 N2. apply nth_snoc in N1, N2. destruct N2 as [N2|[E2 ->]].
        * destruct N1 as [N1|[E1 _]]; [apply (I4 i); assumption|]. apply nth_lt in N2. lia.
        * destruct N1 as [N1|[E1 _]]; [|lia]. cbn [snd].
          destruct I0 as [I0|[-> _]]; [|destruct i; discriminate].
          assert (o1 = (a, b)). { unfold newest in I0. replace (length l - 1)%nat with i in I0 by lia. congruence. }
          subst o1. cbn [snd]. auto.
    - destruct P as (_ & _ & _ & P). exact P.
  Qed.
End C38.

Section C39.
  Context {F : Type} {NF : Num F}.
  Local Open Scope num_scope.
  Definition ratio (a b : F) : F := if b ==? fZ 0 then fZ 0 else a / b.
  Definition per (a : F) (n : nat) : F := if (n =? 0)%nat then fZ 0 else a / fnat n.
  Theorem C39_formulas (cfg : sconfig F) rfr c sigs os s t :
    observed tv_step cfg (tv_new (strategy_new cfg) rfr) c sigs os -> newest os = Some (s, t) ->
    let d := tv_data t in let m := s_metrics s in let k := sc_capital cfg in
    tv_net_profit d = sm_net m /\ tv_net_profit_percent d = sm_net m / k /\
    tv_gross_profit d = sm_gross_profit m /\ tv_gross_profit_percent d = sm_gross_profit m / k /\
    tv_gross_loss d = sm_gross_loss m /\ tv_gross_loss_percent d = sm_gross_loss m / k /\
    tv_open_pl d = sm_open m /\
    tv_closed d = sm_closed m /\ tv_winning d = sm_winning m /\ tv_losing d = sm_losing m /\
    tv_profit_factor d = ratio (sm_gross_profit m) (sm_gross_loss m) /\
    tv_percent_profitable d = per (fnat (sm_winning m)) (sm_closed m) /\
    tv_avg_trade d = per (sm_net m) (sm_closed m) /\
    tv_avg_winning d = per (sm_gross_profit m) (sm_winning m) /\
    tv_avg_losing d = per (sm_gross_loss m) (sm_losing m) /\
    tv_ratio d = ratio (tv_avg_winning d) (tv_avg_losing d) /\
    (sm_winning m + sm_losing m <= sm_closed m)%nat.
  Proof.
    intros O N. cbn zeta.
    destruct (metered_ind _ _ _ _ _ _ (fun l s t => l <> [] -> let d := tv_data t in let m := s_metrics s in let k := sc_capital cfg in
    tv_net_profit d = sm_net m /\ tv_net_profit_percent d = sm_net m / k /\
    tv_gross_profit d = sm_gross_profit m /\ tv_gross_profit_percent d = sm_gross_profit m / k /\
    tv_gross_loss d = sm_gross_loss m /\ tv_gross_loss_percent d = sm_gross_loss m / k /\
    tv_open_pl d = sm_open m /\
    tv_closed d = sm_closed m /\ tv_winning d = sm_winning m /\ tv_losing d = sm_losing m /\
    tv_profit_factor d = ratio (sm_gross_profit m) (sm_gross_loss m) /\
    tv_percent_profitable d = per (fnat (sm_winning m)) (sm_closed m) /\
    tv_avg_trade d = per (sm_net m) (sm_closed m) /\
    tv_avg_winning d = per (sm_gross_profit m) (sm_winning m) /\
    tv_avg_losing d = per (sm_gross_loss m) (sm_losing m) /\
    tv_ratio d = ratio (tv_avg_winning d) (tv_avg_losing d) /\ (sm_winning m + sm_losing m <= sm_closed m)%nat) O) as (s1 & t1 & P & R1 & L1 & H).
    - congruence.
    - intros xs x a a' b b' l R ST L _ H _. cbn zeta.
      assert (T' : tracks cfg (c_data c) (c_index c) (xs ++ [x]) a').
      { destruct (step_tracks _ _ _ _ x (run_tracks _ _ _ _ _ R)) as [G _]. apply G; exact ST. }
      unfold tv_step in H. rewrite (tr_cfg _ _ _ _ _ T') in H.
      destruct (equity_step (ctx_at c (length xs)) (tv_eqm b) a') as [[e []]|] eqn:E; [|discriminate]. cbn [rbind] in H.
      destruct (sstdev_next (tv_neg_stdev b) (fabs (fmin (fZ 0) (r_delta (returns_next (tv_returns b) (e_net e)))))) as [nst nsd].
      injection H as <-. cbn. unfold ratio, per, unwrap_or0, profit_factor, percent_profitable, avg_trade, avg_winning_trade, avg_losing_trade, avg_win_loss_ratio.
      destruct (tr_tally _ _ _ _ _ T').
      assert (W : (sm_winning (s_metrics a') + sm_losing (s_metrics a') <= sm_closed (s_metrics a'))%nat).
      { rewrite ta_w, ta_l, ta_n. clear. generalize (profits (pos_at cfg (c_data c) (c_index c) (xs ++ [x]))). intros ps.
        induction ps as [|p ps IH]; [cbn; lia|]. cbn [filter length]. unfold won at 1, lost at 1.
        destruct (fZ 0 <? p); cbn [negb andb]; [cbn [length]; lia|]. destruct (p <? fZ 0); cbn [length]; lia. }
      repeat split; auto;
        repeat match goal with |- context [if ?b then _ else _] => destruct b end; reflexivity.
    - destruct H as [-> | H]; [discriminate|]. rewrite N in H. injection H as <- <-. apply P. intros ->; discriminate.
  Qed.
End C39.

Section C39_ieee.
  Variable log10 : f64 -> f64.
  #[local] Instance NF39 : Num f64 := IEEE log10.
  (** Percent profitable is between 0 and 1 in f64 arithmetic. *)
  Theorem C39_percent_range (cfg : sconfig f64) rfr c sigs os s t :
    observed tv_step cfg (tv_new (strategy_new cfg) rfr) c sigs os -> newest os = Some (s, t) ->
    (Z.of_nat (sm_closed (s_metrics s)) <= 2 ^ 53)%Z ->
    (fZ 0 <=? tv_percent_profitable (tv_data t))%num = true /\ (tv_percent_profitable (tv_data t) <=? fZ 1)%num = true.
  Proof.
    intros O N B. destruct (C39_formulas _ _ _ _ _ _ _ O N) as (_ & _ & _ & _ & _ & _ & _ & _ & _ & _ & _ & PP & _ & _ & _ & _ & W).
    rewrite PP. unfold per. destruct (Nat.eqb_spec (sm_closed (s_metrics s)) 0) as [Z|Z].
    - split; vm_compute; reflexivity.
    - set (k := sm_winning (s_metrics s)) in *. set (n := sm_closed (s_metrics s)) in *.
      assert (Wn : (k <= n)%nat) by lia.
      destruct (fin_fZ log10 (Z.of_nat k)) as [F1 V1]; [lia|]. destruct (fin_fZ log10 (Z.of_nat n)) as [F2 V2]; [lia|].
      assert (P : (0 < IZR (Z.of_nat n))%R) by (apply IZR_lt; lia).
      assert (P0 : (0 <= IZR (Z.of_nat k))%R) by (apply IZR_le; lia).
      assert (P1 : (IZR (Z.of_nat k) <= IZR (Z.of_nat n))%R) by (apply IZR_le; lia).
      destruct (fin_fZ log10 0) as [F3 V3]; [cbn; lia|]. destruct (fin_fZ log10 1) as [F4 V4]; [cbn; lia|].
      apply (within_le log10 (@fZ f64 (IEEE log10) 0) (@fZ f64 (IEEE log10) 1)); [exact F3|exact F4|].
      apply div_within; [exact F1|exact F2| |].
      + match goal with |- ?x <> _ => assert (x = IZR (Z.of_nat n)) as -> by exact V2 end. lra.
      + match goal with |- (?a <= ?x / ?y <= ?b)%R => assert (x = IZR (Z.of_nat k)) as -> by exact V1;
          assert (y = IZR (Z.of_nat n)) as -> by exact V2; assert (a = 0%R) as -> by exact V3; assert (b = 1%R) as -> by exact V4 end. split.
        * apply Rmult_le_pos; [exact P0|]. left. apply Rinv_0_lt_compat; exact P.
        * apply Rmult_le_reg_r with (r := IZR (Z.of_nat n)); [exact P|]. unfold Rdiv. rewrite Rmult_assoc, Rinv_l; lra.
  Qed.
End C39_ieee.

(** ** C40 *)
Section C40.
  Context {F : Type} {NF : Num F}.
  Local Open Scope num_scope.
  Definition year_skipped (c : ctx F) (start : option Z) (i : nat) : bool :=
    match start with
    | None => false
    | Some y => match bar_year (ctx_at c i) with Ok z => (z <? y)%Z | Panic => false end
    end.
  (** Equity change of each bar relative to the previous bar (the first one:
      to the capital); counted as 0 when either of the two is 0. *)
  Fixpoint bar_returns (prev : F) (eqs : list F) : list F :=
    match eqs with
    | [] => []
    | e :: t => (if (prev ==? fZ 0) || (e ==? fZ 0) then fZ 0 else e / prev - fZ 1) :: bar_returns e t
    end.
  (** ... of the bars not before the start year. *)
  Definition counted (c : ctx F) (start : option Z) (rs : list F) : list F :=
    map snd (filter (fun ir => negb (year_skipped c start (fst ir))) (combine (seq 0 (length rs)) rs)).
  Definition gains_part (r : F) : F := fmax (fZ 0) r.
  Definition loss_part (r : F) : F := fabs (fmin (fZ 0) r).

  Lemma last_cons {A} (l : list A) a d : last (a :: l) d = last l a.
  Proof. revert a d; induction l as [|b l IH]; intros a d; [reflexivity|]. change (last (b :: l) d = last (b :: l) a). rewrite !IH. reflexivity. Qed.
  Lemma bar_returns_snoc p l x : bar_returns p (l ++ [x]) = bar_returns p l ++ [returns_of x (last l p)].
  Proof.
    revert p; induction l as [|a l IH]; intros p; [reflexivity|]. cbn [app bar_returns]. rewrite IH, last_cons. reflexivity.
  Qed.
  Lemma length_bar_returns p l : length (bar_returns p l) = length l.
  Proof. revert p; induction l as [|a l IH]; intros p; [reflexivity|]. cbn. rewrite IH. reflexivity. Qed.
  Lemma counted_snoc c start rs r : counted c start (rs ++ [r]) =
    counted c start rs ++ (if year_skipped c start (length rs) then [] else [r]).
  Proof.
    unfold counted. rewrite app_length. cbn [length]. rewrite Nat.add_1_r, seq_S. cbn [Nat.add].
    assert (E : combine (seq 0 (length rs) ++ [length rs]) (rs ++ [r]) = combine (seq 0 (length rs)) rs ++ [(length rs, r)]).
    { assert (G : forall (A B : Type) (a : list A) (b : list B) x y, length a = length b -> combine (a ++ [x]) (b ++ [y]) = combine a b ++ [(x, y)]).
      { intros A B a; induction a as [|u a IH]; intros [|v b] z y L; try discriminate; [reflexivity|]. cbn. rewrite IH by (cbn in L; lia). reflexivity. }
      apply G. apply seq_length. }
    rewrite E, filter_app, map_app. f_equal. cbn [filter fst]. destruct (year_skipped c start (length rs)); reflexivity.
  Qed.

  (** The state of [CobraMetrics] after any number of bars. *)
  Record cobra_ok (cfg : sconfig F) (c : ctx F) (start : option Z) (os : list (strategy F * cobra F)) (s : strategy F) (b : cobra F) : Prop := {
    co_start : cb_start_year b = start;
    co_rfr : cb_rfr b = fZ 0;
    co_ann : cb_annualized b = fsqrt (fZ 365);
    co_prev : cb_prev_equity b = last (map (fun o => sm_equity (s_metrics (fst o))) os) (sc_capital cfg);
    co_trades : cb_trades b = sm_closed (s_metrics s);
    co_pf : cb_profit_factor b = if (sm_closed (s_metrics s) =? 0)%nat then fZ 0
            else unwrap_or0 (profit_factor (sm_gross_profit (s_metrics s)) (sm_gross_loss (s_metrics s)));
    co_pp : cb_profitable b = if (sm_closed (s_metrics s) =? 0)%nat then fZ 0
            else unwrap_or0 (percent_profitable (sm_winning (s_metrics s)) (sm_closed (s_metrics s)));
    co_ls : cb_ls_ratio b = if (sm_closed (s_metrics s) =? 0)%nat then fZ 0
            else unwrap_or0 (long_net_profit_ratio (sm_long_net (s_metrics s)) (sm_short_net (s_metrics s)));
    co_mean : let rs := counted c start (bar_returns (sc_capital cfg) (map (fun o => sm_equity (s_metrics (fst o))) os)) in
      cb_mean b = mkMean (fsum rs) (length rs) /\
      cb_stdev b = mkVar false rs wvar_new (mkMean (fsum rs) (length rs)) /\
      cb_neg_stdev b = mkVar false (map loss_part rs) wvar_new (mkMean (fsum (map loss_part rs)) (length (map loss_part rs))) /\
      cb_pos_sum b = fsum (map gains_part rs) /\ cb_neg_sum b = fsum (map loss_part rs) /\
      cb_sharpe b = (if rs then fZ 0 else sharpe_ratio (mean rs) (stdev rs) (fZ 0) * fsqrt (fZ 365)) /\
      cb_sortino b = (if rs then fZ 0 else sortino_ratio (mean rs) (stdev (map loss_part rs)) (fZ 0) * fsqrt (fZ 365)) /\
      cb_omega b = (if rs then fZ 0 else omega_ratio (fsum (map gains_part rs)) (fsum (map loss_part rs)) (fZ 0) * fsqrt (fZ 365))
  }.

  Lemma cobra_ok_new cfg c start : cobra_ok cfg c start [] (strategy_new cfg) (cobra_new (strategy_new cfg) false start).
  Proof. split; cbn; auto 10. Qed.

  Lemma cobra_ok_step cfg c start xs x s s' b b' l os :
    run_st strategy_step c (strategy_new cfg) xs = Ok (s, os) ->
    strategy_step (ctx_at c (length xs)) s x = Ok (s', tt) -> length l = length xs ->
    cobra_ok cfg c start l s b -> cobra_step (ctx_at c (length xs)) b s' = Ok (b', tt) ->
    cobra_ok cfg c start (l ++ [(s', b')]) s' b'.
  Proof.
    intros R ST L [] H. pose proof (step_totals _ _ _ _ _ _ _ R ST) as TT.
    unfold cobra_step in H. destruct (cobra_on_exit b s') as [b1|] eqn:EX; [|discriminate]. cbn [rbind] in H.
    (* the on-exit block *)
    assert (B1 : cb_start_year b1 = start /\ cb_rfr b1 = fZ 0 /\ cb_annualized b1 = fsqrt (fZ 365) /\
      cb_prev_equity b1 = last (map (fun o => sm_equity (s_metrics (fst o))) l) (sc_capital cfg) /\
      cb_trades b1 = sm_closed (s_metrics s') /\
      cb_profit_factor b1 = (if (sm_closed (s_metrics s') =? 0)%nat then fZ 0
            else unwrap_or0 (profit_factor (sm_gross_profit (s_metrics s')) (sm_gross_loss (s_metrics s')))) /\
      cb_profitable b1 = (if (sm_closed (s_metrics s') =? 0)%nat then fZ 0
            else unwrap_or0 (percent_profitable (sm_winning (s_metrics s')) (sm_closed (s_metrics s')))) /\
      cb_ls_ratio b1 = (if (sm_closed (s_metrics s') =? 0)%nat then fZ 0
            else unwrap_or0 (long_net_profit_ratio (sm_long_net (s_metrics s')) (sm_short_net (s_metrics s')))) /\
      cb_mean b1 = cb_mean b /\ cb_stdev b1 = cb_stdev b /\ cb_neg_stdev b1 = cb_neg_stdev b /\ cb_pos_sum b1 = cb_pos_sum b /\
      cb_neg_sum b1 = cb_neg_sum b /\ cb_sharpe b1 = cb_sharpe b /\ cb_sortino b1 = cb_sortino b /\ cb_omega b1 = cb_omega b).
    { unfold cobra_on_exit in EX. destruct (s_on_exit s') as [t|].
      - destruct TT as (TC & _). destruct (t_entry_price t); [|discriminate]. cbn [unwrap rbind] in EX. injection EX as <-.
        cbn [cb_start_year cb_rfr cb_annualized cb_prev_equity cb_trades cb_profit_factor cb_profitable cb_ls_ratio cb_mean cb_stdev cb_neg_stdev cb_pos_sum cb_neg_sum cb_sharpe cb_sortino cb_omega].
        rewrite TC. cbn [Nat.eqb]. repeat split; assumption.
      - injection EX as <-. destruct TT as (T1 & T2 & T3 & T4 & T5 & T6 & T7 & T8).
        rewrite T2, T3, T4, T5, T7, T8. repeat split; assumption. }
    destruct B1 as (D1 & D2 & D3 & D4 & D5 & D6 & D7 & D8 & D9 & D10 & D11 & D12 & D13 & D14 & D15 & D16).
    destruct (equity_step (ctx_at c (length xs)) (cb_eqm b1) s') as [[e []]|] eqn:EE; [|discriminate]. cbn [rbind] in H.
    apply equity_step_shape in EE. destruct EE as (EQ & _).
    rewrite D1, D2, D3, D4, D9, D10, D11, D12, D13, D14, D15, D16 in H. rewrite EQ in H.
    set (rs0 := bar_returns (sc_capital cfg) (map (fun o => sm_equity (s_metrics (fst o))) l)) in *.
    destruct co_mean0 as (M1 & M2 & M3 & M4 & M5 & M6 & M7 & M8). cbn zeta in M1, M2, M3, M4, M5, M6, M7, M8.
    set (rs := counted c start rs0) in *.
    set (ret := returns_of (sm_equity (s_metrics s')) (last (map (fun o => sm_equity (s_metrics (fst o))) l) (sc_capital cfg))) in *.
    assert (NR : forall b'', counted c start (bar_returns (sc_capital cfg) (map (fun o => sm_equity (s_metrics (fst o))) (l ++ [(s', b'')]))) =
       rs ++ (if year_skipped c start (length xs) then [] else [ret])).
    { intros b''. rewrite map_app. cbn [map fst]. rewrite bar_returns_snoc, counted_snoc. fold rs0 ret. f_equal.
      unfold rs0. rewrite length_bar_returns, map_length, L. reflexivity. }
    assert (LA : forall b'', last (map (fun o => sm_equity (s_metrics (fst o))) (l ++ [(s', b'')])) (sc_capital cfg) = sm_equity (s_metrics s')).
    { intros b''. rewrite map_app. cbn [map fst]. rewrite last_last. reflexivity. }
    match type of H with rbind ?r _ = _ => destruct r as [sk|] eqn:SK end; [|discriminate]. cbn [rbind] in H.
    assert (YS : year_skipped c start (length xs) = sk).
    { unfold year_skipped. destruct start as [y|].
      - destruct (bar_year (ctx_at c (length xs))) as [z|]; [|discriminate]. cbn in SK. injection SK as ->. reflexivity.
      - injection SK as ->. reflexivity. }
    rewrite M1, M2, M3, M4, M5, M6, M7, M8 in H.
    destruct sk.
    - injection H as <-. split; cbn [cb_start_year cb_rfr cb_annualized cb_prev_equity cb_trades cb_profit_factor cb_profitable cb_ls_ratio cb_mean cb_stdev cb_neg_stdev cb_pos_sum cb_neg_sum cb_sharpe cb_sortino cb_omega];
        rewrite ?LA; auto. cbn zeta. rewrite NR, YS, app_nil_r. auto 10.
    - unfold sstdev_next in H. rewrite var_slow_state in H.
      change (fabs (fmin (fZ 0) ret)) with (loss_part ret) in H. rewrite var_slow_state in H.
      unfold mean_next in H. cbn [mn_sum mn_n] in H.
      injection H as <-. split; cbn [cb_start_year cb_rfr cb_annualized cb_prev_equity cb_trades cb_profit_factor cb_profitable cb_ls_ratio cb_mean cb_stdev cb_neg_stdev cb_pos_sum cb_neg_sum cb_sharpe cb_sortino cb_omega];
        rewrite ?LA; auto. cbn zeta. rewrite NR, YS, !map_app. cbn [map].
      assert (NE : forall (A : Type) (u v : A), (match rs ++ [ret] with [] => u | _ => v end) = v) by (intros; destruct rs; reflexivity).
      rewrite !NE. rewrite !fsum_snoc, !app_length. cbn [length].
      repeat split; unfold mean, stdev, stdev_from_var; rewrite ?fsum_snoc, ?app_length; reflexivity.
  Qed.

  (** Trades, profit factor, percent profitable: those of the closed trades so
      far.  Sharpe, Sortino and Omega: the textbook ratios (risk-free rate 0,
      annualised with sqrt 365) of the returns of the bars not before the
      start year; the other bars contribute nothing. *)
  Theorem C40_ratios (cfg : sconfig F) start c sigs os s b :
    observed cobra_step cfg (cobra_new (strategy_new cfg) false start) c sigs os -> newest os = Some (s, b) ->
    let m := s_metrics s in
    let rs := counted c start (bar_returns (sc_capital cfg) (map (fun o => sm_equity (s_metrics (fst o))) os)) in
    let none := match rs with [] => true | _ => false end in
    let ann x := if none then fZ 0 else x * fsqrt (fZ 365) in
    cb_trades b = sm_closed m /\
    cb_profit_factor b = (if (sm_closed m =? 0)%nat then fZ 0 else ratio (sm_gross_profit m) (sm_gross_loss m)) /\
    cb_profitable b = per (fnat (sm_winning m)) (sm_closed m) /\
    cb_sharpe b = ann (ratio (mean rs - fZ 0) (stdev rs)) /\
    cb_sortino b = ann (ratio (mean rs - fZ 0) (stdev (map loss_part rs))) /\
    cb_omega b = ann (ratio (fsum (map gains_part rs) - fZ 0) (fsum (map loss_part rs))).
  Proof.
    intros O N. cbn zeta.
    destruct (metered_ind _ _ _ _ _ _ (cobra_ok cfg c start) O) as (s1 & b1 & P & R1 & L1 & H).
    - apply cobra_ok_new.
    - intros xs x a a' d d' l R ST L I H. eapply cobra_ok_step; eassumption.
    - destruct H as [-> | H]; [discriminate|]. rewrite N in H. injection H as <- <-. destruct P.
      destruct co_mean0 as (_ & _ & _ & _ & _ & M6 & M7 & M8). cbn zeta in M6, M7, M8.
      split; [exact co_trades0|]. split; [|split; [|split; [|split]]].
      + rewrite co_pf0. unfold profit_factor, ratio. destruct (sm_closed (s_metrics s) =? 0)%nat; [reflexivity|].
        destruct (sm_gross_loss (s_metrics s) ==? fZ 0); reflexivity.
      + rewrite co_pp0. unfold percent_profitable, per. destruct (sm_closed (s_metrics s) =? 0)%nat; reflexivity.
      + rewrite M6. destruct (counted c start (bar_returns (sc_capital cfg) (map (fun o => sm_equity (s_metrics (fst o))) os))); reflexivity.
      + rewrite M7. destruct (counted c start (bar_returns (sc_capital cfg) (map (fun o => sm_equity (s_metrics (fst o))) os))); reflexivity.
      + rewrite M8. destruct (counted c start (bar_returns (sc_capital cfg) (map (fun o => sm_equity (s_metrics (fst o))) os))); reflexivity.
  Qed.
End C40.

Section C40_dd.
  Context {F : Type} {NF : Num F} {OF : OrdNum F}.
  Local Open Scope num_scope.
  (** The running minimum of equity / peak - 1, starting from 0 (NaN values
      ignored); it never increases. *)
  Theorem C40_drawdown (cfg : sconfig F) est start c sigs os s b : fisnan (sc_capital cfg) = false ->
    observed cobra_step cfg (cobra_new (strategy_new cfg) est start) c sigs os -> newest os = Some (s, b) ->
    least_of (cb_eq_max_dd b)
      (fZ 0 :: map (fun o => let e := cb_eqm (snd o) in e_equity e / e_equity_max e - fZ 1) os) /\
    e_equity (cb_eqm b) = sm_equity (s_metrics s) /\
    greatest_of (e_equity_max (cb_eqm b)) (sc_capital cfg :: map (fun o => sm_equity (s_metrics (fst o))) os) /\
    forall i o1 o2, nth_error os i = Some o1 -> nth_error os (S i) = Some o2 ->
      (cb_eq_max_dd (snd o2) <=? cb_eq_max_dd (snd o1)) = true.
  Proof.
    intros NK O N.
    destruct (metered_ind _ _ _ _ _ _ (fun l s b =>
       (newest l = Some (s, b) \/ l = []) /\ fisnan (cb_eq_max_dd b) = false /\
       (exists nets, equity_ok cfg nets (map (fun o => sm_equity (s_metrics (fst o))) l) s (cb_eqm b)) /\
       (l <> [] -> e_equity (cb_eqm b) = sm_equity (s_metrics s)) /\
       least_of (cb_eq_max_dd b) (fZ 0 :: map (fun o => let e := cb_eqm (snd o) in e_equity e / e_equity_max e - fZ 1) l) /\
       forall i o1 o2, nth_error l i = Some o1 -> nth_error l (S i) = Some o2 ->
         (cb_eq_max_dd (snd o2) <=? cb_eq_max_dd (snd o1)) = true) O) as (s1 & b1 & P & R1 & L1 & H).
    - split; [right; reflexivity|]. split; [apply nan_fZ|]. split; [exists []; apply (equity_ok_new cfg NK)|]. split; [congruence|]. split.
      + split; [left; reflexivity|]. split; [apply nan_fZ|]. intros y [<-|[]]. right. apply le_refl, nan_fZ.
      + intros i o1 o2 H; destruct i; discriminate.
    - intros xs x a a' d d' l R ST L (I0 & I1 & [nets I2] & _ & I4 & I5) H.
      unfold cobra_step in H. destruct (cobra_on_exit d a') as [d1|] eqn:EX; [|discriminate]. cbn [rbind] in H.
      assert (D1 : cb_eqm d1 = cb_eqm d /\ cb_eq_max_dd d1 = cb_eq_max_dd d).
      { unfold cobra_on_exit in EX. destruct (s_on_exit a') as [t|]; [|injection EX as <-; auto].
        destruct (t_entry_price t); [|discriminate]. cbn [unwrap rbind] in EX. injection EX as <-. auto. }
      destruct D1 as [D1 D2]. rewrite D1, D2 in H.
      destruct (equity_step (ctx_at c (length xs)) (cb_eqm d) a') as [[e []]|] eqn:EE; [|discriminate]. cbn [rbind] in H.
      match type of H with rbind ?r _ = _ => destruct r as [sk|] end; [|discriminate]. cbn [rbind] in H.
      assert (D' : cb_eqm d' = e /\ cb_eq_max_dd d' = fmin (e_equity e / e_equity_max e - fZ 1) (cb_eq_max_dd d)).
      { destruct sk; [injection H as <-; auto|]. 
        destruct (mean_next (cb_mean d1) (returns_of (e_equity e) (cb_prev_equity d1))).
        destruct (sstdev_next (cb_stdev d1) (returns_of (e_equity e) (cb_prev_equity d1))).
        destruct (sstdev_next (cb_neg_stdev d1) (fabs (fmin (fZ 0) (returns_of (e_equity e) (cb_prev_equity d1))))).
        injection H as <-. auto. }
      destruct D' as [D3 D4].
      pose proof (equity_ok_step _ _ _ _ _ _ _ _ _ _ _ R ST I2 EE) as I2'.
      pose proof (proj1 (equity_step_shape _ _ _ _ EE)) as EQ. rewrite EQ in I2'.
      split; [left; apply newest_snoc|]. split; [rewrite D4; apply fmin_nonnan; right; exact I1|].
      split; [rewrite D3, map_app; eexists; exact I2'|]. split; [intros _; rewrite D3; exact EQ|]. split.
      + rewrite map_app. cbn [map snd]. cbn zeta. rewrite D4, D3.
        apply (least_of_snoc' _ (fZ 0 :: map (fun o => let e := cb_eqm (snd o) in e_equity e / e_equity_max e - fZ 1) l)). exact I4.
      + intros i o1 o2 N1 N2. apply nth_snoc in N1, N2. destruct N2 as [N2|[E2 ->]].
        * destruct N1 as [N1|[E1 _]]; [apply (I5 i); assumption|]. apply nth_lt in N2. lia.
        * destruct N1 as [N1|[E1 _]]; [|lia]. cbn [snd].
          destruct I0 as [I0| ->]; [|destruct i; discriminate].
          assert (o1 = (a, d)). { unfold newest in I0. replace (length l - 1)%nat with i in I0 by lia. congruence. }
          subst o1. cbn [snd]. rewrite D4. apply fmin_le_r. exact I1.
    - destruct H as [-> | H]; [discriminate|]. rewrite N in H. injection H as <- <-.
      destruct P as (_ & _ & [nets P2] & P3 & P4 & P5). split; [exact P4|].
      split; [apply P3; intros ->; discriminate|]. split; [apply (eo_emax _ _ _ _ _ P2)|exact P5].
  Qed.
End C40_dd.

(** ** Concrete runs *)
Section Cases.
  Let cfg := cfg_of false true true.
  Definition tv_view (r : res (list (strategy f64 * tvmetrics f64))) : option (list (nat * nat * nat)) :=
    match r with
    | Ok os => Some (map (fun o => (tv_closed (tv_data (snd o)), length (tv_equity_history (tv_data (snd o))),
                         length (tv_net_equity_history (tv_data (snd o))))) os)
    | Panic => None
    end.
  Example tv_case : tv_view (run (metered tv_step) ctx6 (strategy_new cfg, tv_new (strategy_new cfg) tv_default_rfr) sig6) =
    Some [(0, 2, 1); (0, 3, 1); (0, 4, 1); (1, 5, 2); (1, 6, 2); (2, 7, 3)].
  Proof. vm_compute. reflexivity. Qed.
  Definition cb_view (r : res (list (strategy f64 * cobra f64))) : option (list (nat * bool)) :=
    match r with
    | Ok os => Some (map (fun o => (cb_trades (snd o), fltb (cb_eq_max_dd (snd o)) (q 0))) os)
    | Panic => None
    end.
  Example cobra_case : cb_view (run (metered cobra_step) ctx6 (strategy_new cfg, cobra_new (strategy_new cfg) false None) sig6) =
    Some [(0, false); (0, false); (0, true); (1, true); (1, true); (2, true)].
  Proof. vm_compute. reflexivity. Qed.
End Cases.
