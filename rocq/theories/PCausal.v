(** * PCausal: no component looks beyond the current bar. *)
From Verif Require Export SpecCatalogue.

Section Causal.
  Context {F : Type} {NF : Num F}.

  Definition agree (c c' : ctx F) : Prop := same_until (S (c_index c)) c c'.

  (** Equal results, and the results satisfy [Q]. *)
  Definition req {A} (Q : A -> Prop) (r r' : res A) : Prop :=
    r = r' /\ forall a, r = Ok a -> Q a.
  Definition any {A} : A -> Prop := fun _ => True.

  Lemma req_ok {A} (Q : A -> Prop) a : Q a -> req Q (Ok a) (Ok a).
  Proof. split; [reflexivity|]. intros b [= <-]. assumption. Qed.
  Lemma req_panic {A} (Q : A -> Prop) : req Q (@Panic A) Panic.
  Proof. split; [reflexivity|]. discriminate. Qed.
  Lemma req_refl {A} (r : res A) : req any r r.
  Proof. split; [reflexivity|]. intros; exact Logic.I. Qed.
  Lemma req_eq {A} (r r' : res A) : r = r' -> req any r r'.
  Proof. split; [assumption|]. intros; exact Logic.I. Qed.
  Lemma req_bind {A B} (P : A -> Prop) (Q : B -> Prop) r r' k k' :
    req P r r' -> (forall a, P a -> req Q (k a) (k' a)) -> req Q (rbind r k) (rbind r' k').
  Proof.
    intros [<- HP] HK. destruct r as [a|]; cbn; [apply HK, HP; reflexivity | apply req_panic].
  Qed.

  (** A step that only depends on the data up to the current bar; [P] is an
      invariant of its states. *)
  Definition causal {S I O} (P : S -> Prop) (step : ctx F -> S -> I -> res (S * O)) : Prop :=
    forall c c' s x, agree c c' -> P s -> req (fun p => P (fst p)) (step c s x) (step c' s x).

  CoInductive cobj {I O} (o : obj F I O) : Prop :=
  | CObj : (forall c c' x, agree c c' -> onext o c x = onext o c' x) ->
           (forall c x o' y, onext o c x = Ok (o', y) -> cobj o') -> cobj o.

  Lemma causal_ostep {I O} : causal (@cobj I O) (@ostep F I O).
  Proof.
    intros c c' o x A [H1 H2]. split; [exact (H1 c c' x A)|].
    intros [o' y] E. exact (H2 c x o' y E).
  Qed.

  Lemma agree_refl (c : ctx F) : agree c c.
  Proof. repeat split. Qed.

  Lemma cobj_box {S I O} (P : S -> Prop) (step : ctx F -> S -> I -> res (S * O)) :
    causal P step -> forall s, P s -> cobj (box step s).
  Proof.
    intros H. cofix IH. intros s Hs. constructor.
    - intros c c' x A. cbn. destruct (H c c' s x A Hs) as [<- _]. reflexivity.
    - intros c x o' y E. cbn in E. destruct (H c c s x (agree_refl c) Hs) as [_ HP].
      destruct (step c s x) as [[s' z]|] eqn:E'; [|discriminate]. injection E as <- <-.
      apply IH. exact (HP _ eq_refl).
  Qed.

  (** ** Runs *)
  Lemma same_data_le n m (d d' : provider F) : m <= n -> same_data n d d' -> same_data m d d'.
  Proof.
    intros L (H1 & H2 & H3 & H4 & H5 & H6).
    assert (E : forall A (l l' : list A), firstn n l = firstn n l' -> firstn m l = firstn m l').
    { intros A l l' E. rewrite <- (Nat.min_l m n L), <- !firstn_firstn, E. reflexivity. }
    repeat split; apply E; assumption.
  Qed.
  Lemma causal_run {T I O} (P : T -> Prop) (step : ctx F -> T -> I -> res (T * O)) :
    causal P step -> forall xs c c' s, P s -> same_until (c_index c + length xs) c c' ->
    run_st step c s xs = run_st step c' s xs.
  Proof.
    intros H. induction xs as [|x t IH]; intros c c' s Hs [HI HD]; [reflexivity|].
    cbn [run_st]. cbn in HD.
    assert (A : agree c c').
    { split; [exact HI|]. apply (same_data_le _ (S (c_index c))) in HD; [exact HD | lia]. }
    destruct (H c c' s x A Hs) as [<- HP].
    destruct (step c s x) as [[s1 o]|] eqn:E; cbn; [|reflexivity].
    rewrite (IH (ctx_advance c) (ctx_advance c') s1); [reflexivity | exact (HP _ eq_refl) |].
    split; cbn; [congruence|]. eapply same_data_le; [|exact HD]. lia.
  Qed.

  (** ** What a component can see of the context *)
  Section Leaves.
    Variables c c' : ctx F.
    Hypothesis A : agree c c'.

    Lemma ag_index : c_index c = c_index c'.
    Proof. exact (proj1 A). Qed.
    Lemma nth_firstn_S {B} (l l' : list B) i j : firstn (S i) l = firstn (S i) l' -> j <= i ->
      nth_error l j = nth_error l' j.
    Proof.
      revert l l' j. induction i as [|i IH]; intros l l' j E L.
      - destruct l, l', j; cbn in E; try discriminate; try lia; cbn; congruence.
      - destruct l as [|a l], l' as [|a' l']; cbn [firstn] in E; try discriminate; [reflexivity|].
        injection E as <- E. destruct j; [reflexivity|]. cbn. apply IH; [exact E | lia].
    Qed.
    Lemma ag_vget {B} (l l' : list B) j : firstn (S (c_index c)) l = firstn (S (c_index c)) l' ->
      j <= c_index c -> vget l j = vget l' j.
    Proof. intros E L. unfold vget. rewrite (nth_firstn_S _ _ _ _ E L). reflexivity. Qed.
    Lemma ag_at_length n : at_length c n = at_length c' n.
    Proof. unfold at_length. rewrite ag_index. reflexivity. Qed.
    Lemma ag_open : bar_open c = bar_open c'.
    Proof. unfold bar_open. rewrite <- ag_index. apply ag_vget; [apply A | lia]. Qed.
    Lemma ag_high : bar_high c = bar_high c'.
    Proof. unfold bar_high. rewrite <- ag_index. apply ag_vget; [apply A | lia]. Qed.
    Lemma ag_low : bar_low c = bar_low c'.
    Proof. unfold bar_low. rewrite <- ag_index. apply ag_vget; [apply A | lia]. Qed.
    Lemma ag_close : bar_close c = bar_close c'.
    Proof. unfold bar_close. rewrite <- ag_index. apply ag_vget; [apply A | lia]. Qed.
    Lemma ag_volume : bar_volume c = bar_volume c'.
    Proof. unfold bar_volume. rewrite <- ag_index. apply ag_vget; [apply A | lia]. Qed.
    Lemma ag_time : bar_time c = bar_time c'.
    Proof. unfold bar_time. rewrite <- ag_index. apply ag_vget; [apply A | lia]. Qed.
    Lemma ag_prev v v' n : firstn (S (c_index c)) v = firstn (S (c_index c)) v' ->
      ctx_prev v c n = ctx_prev v' c' n.
    Proof.
      intros E. unfold ctx_prev. rewrite <- ag_index.
      destruct (c_index c <? n); [reflexivity|]. apply ag_vget; [exact E | lia].
    Qed.
    Lemma ag_ctx_high n : ctx_high c n = ctx_high c' n.
    Proof. apply ag_prev, A. Qed.
    Lemma ag_ctx_low n : ctx_low c n = ctx_low c' n.
    Proof. apply ag_prev, A. Qed.
    Lemma ag_ctx_close n : ctx_close c n = ctx_close c' n.
    Proof. apply ag_prev, A. Qed.
    Lemma ag_range v v' n : firstn (S (c_index c)) v = firstn (S (c_index c)) v' ->
      ctx_range v c n = ctx_range v' c' n.
    Proof.
      intros E. unfold ctx_range. rewrite <- ag_index.
      destruct (usub n 1) as [l1|]; [|reflexivity]. cbn.
      destruct (usub (c_index c) l1) as [st|] eqn:Es; [|reflexivity]. cbn.
      unfold usub in Es. destruct (l1 <=? c_index c) eqn:El; [|discriminate].
      injection Es as <-. apply Nat.leb_le in El.
      set (i := c_index c) in *. replace (i + 1) with (S i) by lia.
      assert (EL : (S i <=? length v) = (S i <=? length v')).
      { apply (f_equal (@length _)) in E. rewrite !firstn_length in E.
        destruct (Nat.leb_spec (S i) (length v)); destruct (Nat.leb_spec (S i) (length v')); lia. }
      unfold vslice. rewrite <- EL. destruct ((i - l1 <=? S i) && (S i <=? length v)); [|reflexivity].
      f_equal.
      assert (X : forall a b (l : list (option F)), firstn a (skipn b l) = skipn b (firstn (b + a) l)).
      { intros a b. induction b as [|b IH]; intros l; [reflexivity|].
        destruct l as [|y l]; cbn [skipn]; [rewrite !firstn_nil; reflexivity|].
        cbn [plus firstn skipn]. apply IH. }
      rewrite !X. replace (i - l1 + (S i - (i - l1))) with (S i) by lia. rewrite E. reflexivity.
    Qed.
    Lemma ag_ctx_highs n : ctx_highs c n = ctx_highs c' n.
    Proof. apply ag_range, A. Qed.
    Lemma ag_ctx_lows n : ctx_lows c n = ctx_lows c' n.
    Proof. apply ag_range, A. Qed.
  End Leaves.

  (** ** Components *)
  Definition plain {S I O} (step : ctx F -> S -> I -> res (S * O)) : Prop :=
    forall c c' s x, agree c c' -> step c s x = step c' s x.
  Lemma causal_plain {S I O} (step : ctx F -> S -> I -> res (S * O)) :
    plain step -> causal any step.
  Proof. intros H c c' s x A _. rewrite (H c c' s x A). split; [reflexivity|]. intros; exact Logic.I. Qed.
  Lemma plain_causal {S I O} (step : ctx F -> S -> I -> res (S * O)) :
    causal any step -> plain step.
  Proof. intros H c c' s x A. exact (proj1 (H c c' s x A Logic.I)). Qed.
  Lemma rbind_ext {A B} (r r' : res A) (k k' : A -> res B) :
    r = r' -> (forall a, k a = k' a) -> rbind r k = rbind r' k'.
  Proof. intros <- H. destruct r; cbn; [apply H | reflexivity]. Qed.
End Causal.

Create HintDb look discriminated.
#[export] Hint Extern 0 (_ = _) => reflexivity : look.
#[export] Hint Resolve ag_index ag_at_length ag_open ag_high ag_low ag_close ag_volume ag_time
  ag_ctx_high ag_ctx_low ag_ctx_close ag_ctx_highs ag_ctx_lows : look.

(** Walks through a step function, matching the two sides. *)
Ltac walk :=
  repeat first
    [ reflexivity
    | match goal with
      | |- rbind _ _ = rbind _ _ => apply rbind_ext; [solve [eauto with look]|intros ?]
      | |- context [match ?e with _ => _ end] =>
          match goal with
          | |- ?l = ?r =>
              match l with context [match e with _ => _ end] =>
              match r with context [match e with _ => _ end] => destruct e end end
          end
      | H : agree ?c ?c' |- context [c_index ?c] => rewrite (ag_index _ _ H)
      end ].

Section Steps.
  Context {F : Type} {NF : Num F}.
  Tactic Notation "start" reference(f) := intros c c' s x A; unfold f; cbn zeta; walk.

  Lemma lk_fixnan : plain (@fixnan_step F). Proof. start fixnan_step. Qed.
  Lemma lk_wv : plain (@wv_step F). Proof. start wv_step. Qed.
  Lemma lk_position : plain (@position_step F). Proof. start position_step. Qed.
  Lemma lk_mean : plain (@mean_step F _). Proof. start mean_step. Qed.
  Lemma lk_wvar : plain (@wvar_step F _). Proof. start wvar_step. Qed.
  Lemma lk_wstdev : plain (@wstdev_step F _). Proof. start wstdev_step. Qed.
  Lemma lk_var : plain (@var_step F _). Proof. start var_step. Qed.
  Lemma lk_sstdev : plain (@sstdev_step F _). Proof. start sstdev_step. Qed.
  Lemma lk_src k : plain (src_step k).
  Proof.
    intros c c' s x A. unfold src_step. apply rbind_ext; [|reflexivity].
    destruct k; cbn [src_value]; walk; eauto with look.
  Qed.
  #[local] Hint Resolve lk_fixnan lk_wv lk_mean lk_wvar lk_var lk_sstdev : look.
  Lemma lk_sma : plain (@sma_step F _). Proof. start sma_step. Qed.
  Lemma lk_sum : plain (@sum_step F _). Proof. start sum_step. Qed.
  #[local] Hint Resolve lk_sma lk_sum : look.
  Lemma lk_ema : plain (@ema_step F _). Proof. start ema_step. Qed.
  Lemma lk_rma : plain (@rma_step F _). Proof. exact lk_ema. Qed.
  Lemma lk_swma : plain (@swma_step F _). Proof. start swma_step. Qed.
  Lemma lk_wma : plain (@wma_step F _). Proof. start wma_step. Qed.
  #[local] Hint Resolve lk_ema lk_rma lk_swma lk_wma : look.
  Lemma lk_change : plain (@change_step F _). Proof. start change_step. Qed.
  Lemma lk_roc : plain (@roc_step F _). Proof. start roc_step. Qed.
  Lemma lk_dev : plain (@dev_step F _). Proof. start dev_step. Qed.
  Lemma lk_stdev : plain (@stdev_step F _). Proof. start stdev_step. Qed.
  Lemma lk_highest : plain (@highest_step F _). Proof. start highest_step. Qed.
  Lemma lk_lowest : plain (@lowest_step F _). Proof. start lowest_step. Qed.
  Lemma lk_highest_bars : plain (@highest_bars_step F _). Proof. start highest_bars_step. Qed.
  Lemma lk_lowest_bars : plain (@lowest_bars_step F _). Proof. start lowest_bars_step. Qed.
  Lemma lk_prank : plain (@prank_step F _). Proof. start prank_step. Qed.
  Lemma lk_rsi : plain (@rsi_step F _). Proof. start rsi_step. Qed.
  Lemma lk_stoch : plain (@stoch_step F _). Proof. start stoch_step. Qed.
  Lemma lk_tr : plain (@tr_step F _). Proof. start tr_step. Qed.
  #[local] Hint Resolve lk_change lk_roc lk_dev lk_stdev lk_highest lk_lowest lk_highest_bars
    lk_lowest_bars lk_prank lk_rsi lk_stoch lk_tr : look.
  Lemma lk_atr : plain (@atr_step F _). Proof. start atr_step. Qed.
  Lemma lk_cross : plain (@cross_step F _). Proof. start cross_step. Qed.
  Lemma lk_crossover : plain (@crossover_step F _). Proof. start crossover_step. Qed.
  Lemma lk_crossunder : plain (@crossunder_step F _). Proof. start crossunder_step. Qed.
  Lemma lk_cross_t : plain (@cross_t_step F _). Proof. start cross_t_step. Qed.
  Lemma lk_crossover_t : plain (@crossover_t_step F _). Proof. start crossover_t_step. Qed.
  Lemma lk_crossunder_t : plain (@crossunder_t_step F _). Proof. start crossunder_t_step. Qed.
  #[local] Hint Resolve lk_atr lk_cross lk_crossover_t lk_crossunder_t : look.
  Lemma lk_aroon : plain (@aroon_step F _). Proof. start aroon_step. Qed.
  Lemma lk_bop : plain (@bop_step F _). Proof. start bop_step. Qed.
  Lemma lk_cmf : plain (@cmf_step F _). Proof. start cmf_step. Qed.
  Lemma lk_cks : plain (@cks_step F _). Proof. start cks_step. Qed.
  Lemma lk_chop : plain (@chop_step F _). Proof. start chop_step. Qed.
  Lemma lk_dmi : plain (@dmi_step F _). Proof. start dmi_step. Qed.
  Lemma lk_don : plain (@don_step F _). Proof. start don_step. Qed.
  Lemma lk_rvgi : plain (@rvgi_step F _). Proof. start rvgi_step. Qed.
  Lemma lk_uo : plain (@uo_step F _).
  Proof.
    intros c c' s x A. unfold uo_step. cbn zeta.
    do 3 (apply rbind_ext; [solve [eauto with look]|intros ?]).
    apply rbind_ext; [|intros ?; walk].
    rewrite (ag_index _ _ A). destruct (0 <? c_index c'); [apply ag_ctx_close, A | reflexivity].
  Qed.
  Lemma lk_vortex : plain (@vortex_step F _). Proof. start vortex_step. Qed.
  Lemma lk_thr : plain (@thr_step F _). Proof. start thr_step. Qed.
  Lemma lk_srsi_strategy : plain (@srsi_strategy_step F _). Proof. intros c c' s x A. apply lk_thr, A. Qed.
  Lemma lk_cross_strategy : plain (@cross_strategy_step F _). Proof. start cross_strategy_step. Qed.
  Lemma lk_dmi_strategy : plain (@dmi_strategy_step F _). Proof. start dmi_strategy_step. Qed.
  Lemma lk_aroons : plain (@aroons_step F _). Proof. start aroons_step. Qed.
  Lemma lk_strategy : plain (@strategy_step F _).
  Proof.
    intros c c' s x A. unfold strategy_step. cbn zeta. rewrite (ag_index _ _ A).
    do 2 (apply rbind_ext; [solve [eauto with look]|intros ?]). reflexivity.
  Qed.
  Lemma lk_equity : plain (@equity_step F _).
  Proof.
    intros c c' s x A. unfold equity_step. cbn zeta.
    destruct (match s_on_exit x with Some _ => _ | None => _ end) as [[a b] d].
    apply rbind_ext; [|reflexivity].
    destruct (split_last (s_trades x)) as [[? t]|]; [|reflexivity].
    destruct (t_closed t); [reflexivity|].
    rewrite (ag_low _ _ A), (ag_high _ _ A). reflexivity.
  Qed.
  Lemma lk_returns : plain (@returns_step F _). Proof. start returns_step. Qed.
  #[local] Hint Resolve lk_equity : look.
  Lemma lk_tv : plain (@tv_step F _).
  Proof.
    intros c c' s x A. unfold tv_step. cbn zeta. apply rbind_ext; [apply lk_equity, A|].
    reflexivity.
  Qed.
  Lemma lk_cobra : plain (@cobra_step F _).
  Proof.
    intros c c' s x A. unfold cobra_step. cbn zeta. apply rbind_ext; [reflexivity|]. intros b.
    apply rbind_ext; [apply lk_equity, A|]. intros [e []].
    apply rbind_ext; [|reflexivity].
    unfold bar_year. rewrite (ag_time _ _ A). reflexivity.
  Qed.

  (** Components with sources and averages inside. *)
  Lemma cobj_src k : cobj (@src_box F _ k).
  Proof. apply (cobj_box any); [apply causal_plain, lk_src | exact Logic.I]. Qed.
  Lemma cobj_ma k n o : @ma_new F _ k n = Ok o -> cobj o.
  Proof.
    destruct k; cbn [ma_new]; intros E;
      [destruct (sma_new n) | destruct (ema_new n) | destruct (rma_new n) | destruct swma_new];
      try discriminate; injection E as <-; apply (cobj_box any); try exact Logic.I; apply causal_plain.
    - exact lk_sma.
    - exact lk_ema.
    - exact lk_rma.
    - exact lk_swma.
  Qed.

  Lemma ostep_req {I O} (o : obj F I O) c c' x : agree c c' -> cobj o ->
    req (fun p => cobj (fst p)) (ostep c o x) (ostep c' o x).
  Proof. intros A H. apply causal_ostep; assumption. Qed.

  Ltac walkr :=
    repeat match goal with
    | |- req _ (rbind (ostep _ _ _) _) (rbind _ _) =>
        eapply req_bind; [apply ostep_req; [assumption | tauto]|]; intros [? ?] ?; cbn [fst] in *
    | |- req _ (rbind _ _) (rbind _ _) =>
        eapply req_bind; [apply req_eq; solve [eauto with look]|]; intros [? ?] _
    | |- req _ (Ok _) (Ok _) => apply req_ok; cbn; tauto
    end.
  Lemma ck_ao : causal (fun s => cobj (ao_ssrc s) /\ cobj (ao_lsrc s) /\ cobj (ao_sma s) /\ cobj (ao_lma s)) (@ao_step F _).
  Proof. intros c c' s x A P. cbn beta in P. unfold ao_step. cbn zeta. walkr. Qed.
  Lemma ck_bbpb : causal (fun s => cobj (bb_src s)) (@bbpb_step F _).
  Proof. intros c c' s x A P. cbn beta in P. unfold bbpb_step. cbn zeta. walkr. Qed.
  Lemma ck_bbw : causal (fun s => cobj (bb_src s)) (@bbw_step F _).
  Proof. intros c c' s x A P. cbn beta in P. unfold bbw_step. cbn zeta. walkr. Qed.
  Lemma ck_cmo : causal (fun s => cobj (cmo_src s)) (@cmo_step F _).
  Proof. intros c c' s x A P. cbn beta in P. unfold cmo_step. cbn zeta. walkr. Qed.
  Lemma ck_cci : causal (fun s => cobj (cci_src s)) (@cci_step F _).
  Proof. intros c c' s x A P. cbn beta in P. unfold cci_step. cbn zeta. walkr. Qed.
  Lemma ck_crsi : causal (fun s => cobj (cr_src s)) (@crsi_step F _).
  Proof. intros c c' s x A P. cbn beta in P. unfold crsi_step. cbn zeta. walkr. Qed.
  Lemma ck_cop : causal (fun s => cobj (cp_src s)) (@cop_step F _).
  Proof. intros c c' s x A P. cbn beta in P. unfold cop_step. cbn zeta. walkr. Qed.
  Lemma ck_macd : causal (fun s => cobj (mc_ssrc s) /\ cobj (mc_lsrc s) /\ cobj (mc_sma s) /\ cobj (mc_lma s) /\ cobj (mc_sig s)) (@macd_step F _).
  Proof. intros c c' s x A P. cbn beta in P. unfold macd_step. cbn zeta. walkr. Qed.
  Lemma ck_po : causal (fun s => cobj (po_src s) /\ cobj (po_sma s) /\ cobj (po_lma s)) (@po_step F _).
  Proof. intros c c' s x A P. cbn beta in P. unfold po_step. cbn zeta. walkr. Qed.
  Lemma ck_rsii : causal (fun s => cobj (ri_src s)) (@rsii_step F _).
  Proof. intros c c' s x A P. cbn beta in P. unfold rsii_step. cbn zeta. walkr. Qed.
  Lemma ck_rvoli : causal (fun s => cobj (rv_src s)) (@rvoli_step F _).
  Proof. intros c c' s x A P. cbn beta in P. unfold rvoli_step. cbn zeta. walkr. Qed.
  Lemma ck_srsi : causal (fun s => cobj (sr_src s)) (@srsi_step F _).
  Proof. intros c c' s x A P. cbn beta in P. unfold srsi_step. cbn zeta. walkr. Qed.
  Lemma ck_vo : causal (fun s => cobj (vo_sma s) /\ cobj (vo_lma s)) (@vo_step F _).
  Proof. intros c c' s x A P. cbn beta in P. unfold vo_step.
    eapply req_bind; [apply req_eq; eauto with look|]. intros v _. walkr. Qed.
  Lemma ck_wpr : causal (fun s => cobj (wp_src s)) (@wpr_step F _).
  Proof. intros c c' s x A P. cbn beta in P. unfold wpr_step.
    eapply req_bind; [apply ostep_req; [assumption | exact P]|]. intros [? ?] ?. cbn [fst] in *.
    do 2 (eapply req_bind; [apply req_eq; eauto with look|]; intros ? _). walkr. Qed.

  (** Every component of the catalogue, whatever [new] returns. *)
  Theorem catalogue_causal {S I O} (new : res S) (step : ctx F -> S -> I -> res (S * O)) :
    component new step -> exists P, causal P step /\ forall s, new = Ok s -> P s.
  Proof.
    induction 1.
    all: try (exists any; split; [apply causal_plain; solve [
      exact lk_fixnan | exact lk_wv | exact lk_position | apply lk_src | exact lk_mean | exact lk_wvar
      | exact lk_wstdev | exact lk_var | exact lk_sstdev | exact lk_sma | exact lk_sum | exact lk_ema
      | exact lk_rma | exact lk_swma | exact lk_wma | exact lk_change | exact lk_roc | exact lk_dev
      | exact lk_stdev | exact lk_highest | exact lk_lowest | exact lk_highest_bars | exact lk_lowest_bars
      | exact lk_prank | exact lk_rsi | exact lk_stoch | exact lk_tr | exact lk_atr | exact lk_cross
      | exact lk_crossover | exact lk_crossunder | exact lk_cross_t | exact lk_crossover_t
      | exact lk_crossunder_t | exact lk_aroon | exact lk_bop | exact lk_cmf | exact lk_cks | exact lk_chop
      | exact lk_dmi | exact lk_don | exact lk_rvgi | exact lk_uo | exact lk_vortex | exact lk_thr
      | exact lk_srsi_strategy | exact lk_cross_strategy | exact lk_dmi_strategy | exact lk_aroons
      | exact lk_strategy | exact lk_equity | exact lk_returns | exact lk_tv | exact lk_cobra ]
      | intros; exact Logic.I]).
    all: try (eexists; split; [solve [ exact ck_ao | exact ck_bbpb | exact ck_bbw | exact ck_cmo
      | exact ck_cci | exact ck_crsi | exact ck_cop | exact ck_macd | exact ck_po | exact ck_rsii
      | exact ck_rvoli | exact ck_srsi | exact ck_vo | exact ck_wpr ]|];
      intros s E; cbn beta;
      unfold bb_new, cmo_new, cci_new, crsi_new, cop_new, rsii_new, rvoli_new, srsi_new, wpr_new in E;
      repeat match type of E with rbind ?e _ = _ => destruct e eqn:?; cbn [rbind] in E; [|discriminate E] end;
      injection E as <-; cbn;
      repeat match goal with |- _ /\ _ => split end;
      solve [apply cobj_src | eapply cobj_ma; eassumption]).
    - (* Ma *) exists cobj. split; [exact causal_ostep|]. intros s E. exact (cobj_ma _ _ _ E).
    - (* pipe *)
      destruct IHcomponent1 as (P1 & H1 & N1). destruct IHcomponent2 as (P2 & H2 & N2).
      exists (fun s => P1 (fst s) /\ P2 (snd s)). split.
      + intros c c' s x A [Q1 Q2]. unfold pipe_step.
        eapply req_bind; [apply H1; assumption|]. intros [a1 m] Ha. cbn [fst] in Ha.
        eapply req_bind; [apply H2; assumption|]. intros [b1 o] Hb. cbn [fst] in Hb.
        apply req_ok. cbn. split; assumption.
      + intros s E. unfold pipe_new in E. destruct a as [a|]; [|discriminate].
        destruct b as [b|]; [|discriminate]. injection E as <-. cbn. split; [apply N1 | apply N2]; reflexivity.
    - (* shown *)
      destruct IHcomponent as (P & H1 & N1). exists P. split; [|exact N1].
      intros c c' s x A Q. unfold shown. eapply req_bind; [apply H1; assumption|].
      intros [a1 m] Ha. apply req_ok. exact Ha.
    - (* boxed *)
      destruct IHcomponent as (P & H1 & N1). exists cobj. split; [exact causal_ostep|].
      intros s E. destruct a as [a|]; [|discriminate]. injection E as <-.
      apply (cobj_box P); [exact H1 | apply N1; reflexivity].
  Qed.
End Steps.
