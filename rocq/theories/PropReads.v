(** * PropReads (C129): which columns of the price data each part of the
    library reads.  Two data sets that hold the same values in those columns
    give the same outputs - and the same panics - whatever the other columns
    hold, including holes and columns of another length; and each listed column
    does matter. *)
From Flocq Require Import IEEE754.BinarySingleNaN.
From Verif Require Import Spec PMetrics PropMetrics Inst MContent.

(** The six columns of an [InMemoryDataProvider]. *)
Inductive column := COpen | CHigh | CLow | CClose | CVolume | CTime.

Section Columns.
  Context {F : Type}.
  (** The two providers hold the same values in this column. *)
  Definition same_column (k : column) (d d' : provider F) : Prop :=
    match k with
    | COpen => p_open d = p_open d'
    | CHigh => p_high d = p_high d'
    | CLow => p_low d = p_low d'
    | CClose => p_close d = p_close d'
    | CVolume => p_volume d = p_volume d'
    | CTime => p_time d = p_time d'
    end.
  (** Two contexts at the same bar whose data agree on the columns [ks]; the
      other columns are arbitrary. *)
  Definition agree (ks : list column) (c c' : ctx F) : Prop :=
    c_index c = c_index c' /\ (forall k, In k ks -> same_column k (c_data c) (c_data c')).
  (** A freshly built component reads nothing but the columns [ks]. *)
  Definition reads_only {S I O : Type} (ks : list column) (new : res S)
      (step : ctx F -> S -> I -> res (S * O)) : Prop :=
    forall c c' xs, agree ks c c' -> run_new new step c xs = run_new new step c' xs.
  (** The same for an object built by the user (a source, a moving average). *)
  CoInductive reads {I O : Type} (ks : list column) (o : obj F I O) : Prop :=
    Reads : (forall c c' x, agree ks c c' -> onext o c x = onext o c' x) ->
            (forall c x o' y, onext o c x = Ok (o', y) -> reads ks o') -> reads ks o.
End Columns.

(** The columns behind each kind of source. *)
Definition columns_of (k : src_kind) : list column :=
  match k with
  | SOpen => [COpen] | SHigh => [CHigh] | SLow => [CLow] | SClose => [CClose]
  | SVolume => [CVolume] | SOHLC4 => [COpen; CHigh; CLow; CClose]
  | SHLC3 => [CHigh; CLow; CClose] | SHL2 => [CHigh; CLow]
  end.

Section Reading.
  Context {F : Type} {NF : Num F}.

  Lemma agree_advance ks (c c' : ctx F) : agree ks c c' -> agree ks (ctx_advance c) (ctx_advance c').
  Proof. intros [E H]. split; [cbn; now rewrite E|exact H]. Qed.
  Lemma agree_incl ks ks' (c c' : ctx F) : incl ks ks' -> agree ks' c c' -> agree ks c c'.
  Proof. intros I [E H]. split; [exact E|]. intros k K. apply H, I, K. Qed.

  (** One step reads nothing but [ks] from states satisfying [Inv]. *)
  Definition sound {S I O} (ks : list column) (Inv : S -> Prop) (step : ctx F -> S -> I -> res (S * O)) : Prop :=
    forall c c' s x, agree ks c c' -> Inv s ->
      step c s x = step c' s x /\ forall s' o, step c s x = Ok (s', o) -> Inv s'.
  Lemma sound_run {S I O} ks (Inv : S -> Prop) (step : ctx F -> S -> I -> res (S * O)) new :
    sound ks Inv step -> (forall s, new = Ok s -> Inv s) -> reads_only ks new step.
  Proof.
    intros H N c c' xs A. unfold run_new. destruct new as [s|]; cbn [rbind]; [|reflexivity].
    specialize (N _ eq_refl). unfold run. f_equal.
    revert c c' s A N. induction xs as [|x t IH]; intros c c' s A N; cbn [run_st]; [reflexivity|].
    destruct (H c c' s x A N) as [E K]. rewrite <- E. destruct (step c s x) as [[s1 o]|]; cbn [rbind]; [|reflexivity].
    now rewrite (IH _ _ s1 (agree_advance _ _ _ A) (K _ _ eq_refl)).
  Qed.

  (** Steps that hold no user-supplied object. *)
  Definition plain {S I O} (ks : list column) (step : ctx F -> S -> I -> res (S * O)) : Prop :=
    forall c c' s x, agree ks c c' -> step c s x = step c' s x.
  Lemma plain_run {S I O} ks (step : ctx F -> S -> I -> res (S * O)) new : plain ks step -> reads_only ks new step.
  Proof.
    intros H. apply (sound_run ks (fun _ => True)); [|auto]. intros c c' s x A _. split; [exact (H c c' s x A)|auto].
  Qed.
  Lemma plain_incl {S I O} ks ks' (step : ctx F -> S -> I -> res (S * O)) : incl ks ks' -> plain ks step -> plain ks' step.
  Proof. intros I0 H c c' s x A. apply H. exact (agree_incl _ _ _ _ I0 A). Qed.
  Lemma plain_box {S I O} ks (step : ctx F -> S -> I -> res (S * O)) s : plain ks step -> reads ks (box step s).
  Proof.
    intros H. revert s. cofix CH. intros s. constructor.
    - intros c c' x A. cbn [onext box]. now rewrite (H c c' s x A).
    - intros c x o' y E. cbn [onext box] in E. destruct (step c s x) as [[s1 o1]|]; [|discriminate].
      injection E as <- <-. exact (CH s1).
  Qed.
  Lemma reads_incl {I O} ks ks' (o : obj F I O) : incl ks ks' -> reads ks o -> reads ks' o.
  Proof.
    intros I0. revert o. cofix CH. intros o [H K]. constructor.
    - intros c c' x A. apply H. exact (agree_incl _ _ _ _ I0 A).
    - intros c x o' y E. exact (CH o' (K c x o' y E)).
  Qed.
  Lemma reads_step {I O} ks (o : obj F I O) c c' x : reads ks o -> agree ks c c' -> ostep c o x = ostep c' o x.
  Proof. intros [H _] A. exact (H c c' x A). Qed.
  Lemma reads_next {I O} ks (o o' : obj F I O) c x y : reads ks o -> ostep c o x = Ok (o', y) -> reads ks o'.
  Proof. intros [_ K] E. exact (K c x o' y E). Qed.
End Reading.

(** Two contexts that agree on the columns a step reads compute alike. *)
Ltac plain_tac :=
  let c := fresh "c" in let c' := fresh "c'" in let A := fresh "A" in let E := fresh "E" in
  intros c c' ? ? [E A];
  try pose proof (A COpen ltac:(cbn; tauto)); try pose proof (A CHigh ltac:(cbn; tauto));
  try pose proof (A CLow ltac:(cbn; tauto)); try pose proof (A CClose ltac:(cbn; tauto));
  try pose proof (A CVolume ltac:(cbn; tauto)); try pose proof (A CTime ltac:(cbn; tauto)); clear A;
  destruct c as [[? ? ? ? ? ? ? ?] ? ? ? ? ?], c' as [[? ? ? ? ? ? ? ?] ? ? ? ? ?];
  cbn in *; subst; reflexivity.

Section Components.
  Context {F : Type} {NF : Num F}.
  Local Notation ctx := (ctx F).

  Lemma sma_plain : plain [] (@sma_step F _). Proof. plain_tac. Qed.
  Lemma sum_plain : plain [] (@sum_step F _). Proof. plain_tac. Qed.
  Lemma ema_plain : plain [] (@ema_step F _). Proof. plain_tac. Qed.
  Lemma rma_plain : plain [] (@rma_step F _). Proof. exact ema_plain. Qed.
  Lemma swma_plain : plain [] (@swma_step F _). Proof. plain_tac. Qed.
  Lemma wma_plain : plain [] (@wma_step F _). Proof. plain_tac. Qed.
  Lemma change_plain : plain [] (@change_step F _). Proof. plain_tac. Qed.
  Lemma roc_plain : plain [] (@roc_step F _). Proof. plain_tac. Qed.
  Lemma dev_plain : plain [] (@dev_step F _). Proof. plain_tac. Qed.
  Lemma stdev_plain : plain [] (@stdev_step F _). Proof. plain_tac. Qed.
  Lemma highest_plain : plain [] (@highest_step F _). Proof. plain_tac. Qed.
  Lemma lowest_plain : plain [] (@lowest_step F _). Proof. plain_tac. Qed.
  Lemma prank_plain : plain [] (@prank_step F _). Proof. plain_tac. Qed.
  Lemma rsi_plain : plain [] (@rsi_step F _). Proof. plain_tac. Qed.
  Lemma stoch_plain : plain [] (@stoch_step F _). Proof. plain_tac. Qed.
  Lemma cross_plain : plain [] (@cross_step F _). Proof. plain_tac. Qed.
  Lemma crossover_plain : plain [] (@crossover_step F _). Proof. plain_tac. Qed.
  Lemma crossunder_plain : plain [] (@crossunder_step F _). Proof. plain_tac. Qed.
  Lemma cross_t_plain : plain [] (@cross_t_step F _). Proof. plain_tac. Qed.
  Lemma crossover_t_plain : plain [] (@crossover_t_step F _). Proof. plain_tac. Qed.
  Lemma crossunder_t_plain : plain [] (@crossunder_t_step F _). Proof. plain_tac. Qed.
  Lemma fixnan_plain : plain [] (@fixnan_step F). Proof. plain_tac. Qed.
  Lemma wv_plain : plain [] (@wv_step F). Proof. plain_tac. Qed.
  Lemma position_plain : plain [] (@position_step F). Proof. plain_tac. Qed.
  Lemma tr_plain : plain [CHigh; CLow; CClose] (@tr_step F _). Proof. plain_tac. Qed.
  Lemma atr_plain : plain [CHigh; CLow; CClose] (@atr_step F _). Proof. plain_tac. Qed.
  Lemma hb_plain : plain [CHigh] (@highest_bars_step F _). Proof. plain_tac. Qed.
  Lemma lb_plain : plain [CLow] (@lowest_bars_step F _). Proof. plain_tac. Qed.
  Lemma src_plain k : plain (columns_of k) (@src_step F _ k). Proof. destruct k; plain_tac. Qed.
  Lemma aroon_plain : plain [CHigh; CLow] (@aroon_step F _). Proof. plain_tac. Qed.
  Lemma bop_plain : plain [COpen; CHigh; CLow; CClose] (@bop_step F _). Proof. plain_tac. Qed.
  Lemma cmf_plain : plain [CHigh; CLow; CClose; CVolume] (@cmf_step F _). Proof. plain_tac. Qed.
  Lemma cks_plain : plain [CHigh; CLow; CClose] (@cks_step F _). Proof. plain_tac. Qed.
  Lemma chop_plain : plain [CHigh; CLow; CClose] (@chop_step F _). Proof. plain_tac. Qed.
  Lemma dmi_plain : plain [CHigh; CLow; CClose] (@dmi_step F _). Proof. plain_tac. Qed.
  Lemma don_plain : plain [CHigh; CLow] (@don_step F _). Proof. plain_tac. Qed.
  Lemma rvgi_plain : plain [COpen; CHigh; CLow; CClose] (@rvgi_step F _). Proof. plain_tac. Qed.
  Lemma uo_plain : plain [CHigh; CLow; CClose] (@uo_step F _). Proof. plain_tac. Qed.
  Lemma vortex_plain : plain [CHigh; CLow; CClose] (@vortex_step F _). Proof. plain_tac. Qed.
  Lemma thr_plain : plain [] (@thr_step F _). Proof. plain_tac. Qed.
  Lemma srsi_strategy_plain : plain [] (@srsi_strategy_step F _). Proof. plain_tac. Qed.
  Lemma cross_strategy_plain : plain [] (@cross_strategy_step F _). Proof. plain_tac. Qed.
  Lemma dmi_strategy_plain : plain [] (@dmi_strategy_step F _). Proof. plain_tac. Qed.
  Lemma aroons_plain : plain [] (@aroons_step F _). Proof. plain_tac. Qed.
  Lemma strategy_plain : plain [COpen; CClose] (@strategy_step F _). Proof. plain_tac. Qed.
  Lemma equity_plain : plain [CHigh; CLow] (@equity_step F _). Proof. plain_tac. Qed.
  Lemma tv_plain : plain [CHigh; CLow] (@tv_step F _). Proof. plain_tac. Qed.
  Lemma cobra_plain : plain [CHigh; CLow; CTime] (@cobra_step F _). Proof. plain_tac. Qed.
End Components.

Lemma nil_agree {F} ks (c c' : ctx F) : agree ks c c' -> agree [] c c'.
Proof. intros [E _]. split; [exact E|intros k []]. Qed.
Lemma high_agree {F} ks (c c' : ctx F) : In CHigh ks -> agree ks c c' -> bar_high c = bar_high c'.
Proof. intros I [E A]. unfold bar_high. rewrite E. now rewrite (A _ I). Qed.
Lemma low_agree {F} ks (c c' : ctx F) : In CLow ks -> agree ks c c' -> bar_low c = bar_low c'.
Proof. intros I [E A]. unfold bar_low. rewrite E. now rewrite (A _ I). Qed.
Lemma volume_agree {F} ks (c c' : ctx F) : In CVolume ks -> agree ks c c' -> bar_volume c = bar_volume c'.
Proof. intros I [E A]. unfold bar_volume. rewrite E. now rewrite (A _ I). Qed.

Ltac same_call c c' A :=
  lazymatch goal with
  | |- ostep _ _ _ = _ => eapply reads_step; [eassumption|exact A]
  | |- bar_high _ = _ => eapply high_agree; [eassumption|exact A]
  | |- bar_low _ = _ => eapply low_agree; [eassumption|exact A]
  | |- bar_volume _ = _ => eapply volume_agree; [eassumption|exact A]
  | |- sma_step _ ?s ?x = _ => exact (sma_plain c c' s x (nil_agree _ _ _ A))
  | |- sum_step _ ?s ?x = _ => exact (sum_plain c c' s x (nil_agree _ _ _ A))
  | |- ema_step _ ?s ?x = _ => exact (ema_plain c c' s x (nil_agree _ _ _ A))
  | |- swma_step _ ?s ?x = _ => exact (swma_plain c c' s x (nil_agree _ _ _ A))
  | |- wma_step _ ?s ?x = _ => exact (wma_plain c c' s x (nil_agree _ _ _ A))
  | |- roc_step _ ?s ?x = _ => exact (roc_plain c c' s x (nil_agree _ _ _ A))
  | |- dev_step _ ?s ?x = _ => exact (dev_plain c c' s x (nil_agree _ _ _ A))
  | |- stdev_step _ ?s ?x = _ => exact (stdev_plain c c' s x (nil_agree _ _ _ A))
  | |- highest_step _ ?s ?x = _ => exact (highest_plain c c' s x (nil_agree _ _ _ A))
  | |- lowest_step _ ?s ?x = _ => exact (lowest_plain c c' s x (nil_agree _ _ _ A))
  | |- prank_step _ ?s ?x = _ => exact (prank_plain c c' s x (nil_agree _ _ _ A))
  | |- rsi_step _ ?s ?x = _ => exact (rsi_plain c c' s x (nil_agree _ _ _ A))
  | |- stoch_step _ ?s ?x = _ => exact (stoch_plain c c' s x (nil_agree _ _ _ A))
  end.
Ltac sound_tac :=
  let c := fresh "c" in let c' := fresh "c'" in let s := fresh "s" in let x := fresh "x" in
  let A := fresh "A" in let V := fresh "V" in let E := fresh "E" in
  intros c c' s x A V; decompose [and] V; clear V; split;
  [ cbv beta delta [ao_step bbpb_step bbw_step cmo_step cci_step crsi_step cop_step macd_step po_step rsii_step
      rvoli_step srsi_step vo_step wpr_step];
    repeat match goal with
    | |- rbind ?l _ = rbind ?r _ =>
        let K := fresh "K" in assert (l = r) as K by same_call c c' A; rewrite K; clear K;
        destruct r as [?p|]; cbn [rbind]; [try destruct p|reflexivity]
    end; reflexivity
  | let s' := fresh "s'" in let o := fresh "o" in intros s' o E;
    cbv beta delta [ao_step bbpb_step bbw_step cmo_step cci_step crsi_step cop_step macd_step po_step rsii_step
      rvoli_step srsi_step vo_step wpr_step] in E;
    repeat match type of E with
    | rbind ?l _ = _ =>
        destruct l as [?p|] eqn:?; cbn [rbind] in E; [try destruct p|discriminate E]
    end; injection E as <- <-; cbn; repeat match goal with |- _ /\ _ => split end; try exact I;
    match goal with H : ostep _ _ _ = Ok (?o2, _) |- reads _ ?o2 => refine (reads_next _ _ _ _ _ _ _ H); assumption end ].

Section Sources.
  Context {F : Type} {NF : Num F}.
  Variable ks : list column.

  Lemma ao_sound : sound ks (fun s => reads ks (ao_ssrc s) /\ reads ks (ao_lsrc s) /\ reads ks (ao_sma s) /\ reads ks (ao_lma s))
    (@ao_step F _).
  Proof. sound_tac. Qed.
  Lemma bbpb_sound : sound ks (fun s => reads ks (bb_src s) /\ True) (@bbpb_step F _).
  Proof. sound_tac. Qed.
  Lemma bbw_sound : sound ks (fun s => reads ks (bb_src s) /\ True) (@bbw_step F _).
  Proof. sound_tac. Qed.
  Lemma cmo_sound : sound ks (fun s => reads ks (cmo_src s) /\ True) (@cmo_step F _).
  Proof. sound_tac. Qed.
  Lemma cci_sound : sound ks (fun s => reads ks (cci_src s) /\ True) (@cci_step F _).
  Proof. sound_tac. Qed.
  Lemma crsi_sound : sound ks (fun s => reads ks (cr_src s) /\ True) (@crsi_step F _).
  Proof. sound_tac. Qed.
  Lemma cop_sound : sound ks (fun s => reads ks (cp_src s) /\ True) (@cop_step F _).
  Proof. sound_tac. Qed.
  Lemma macd_sound : sound ks (fun s => reads ks (mc_ssrc s) /\ reads ks (mc_lsrc s) /\ reads ks (mc_sma s) /\ reads ks (mc_lma s)
    /\ reads ks (mc_sig s)) (@macd_step F _).
  Proof. sound_tac. Qed.
  Lemma po_sound : sound ks (fun s => reads ks (po_src s) /\ reads ks (po_sma s) /\ reads ks (po_lma s)) (@po_step F _).
  Proof. sound_tac. Qed.
  Lemma rsii_sound : sound ks (fun s => reads ks (ri_src s) /\ True) (@rsii_step F _).
  Proof. sound_tac. Qed.
  Lemma rvoli_sound : sound ks (fun s => reads ks (rv_src s) /\ True) (@rvoli_step F _).
  Proof. sound_tac. Qed.
  Lemma srsi_sound : sound ks (fun s => reads ks (sr_src s) /\ True) (@srsi_step F _).
  Proof. sound_tac. Qed.
  Lemma vo_sound : In CVolume ks -> sound ks (fun s => reads ks (vo_sma s) /\ reads ks (vo_lma s)) (@vo_step F _).
  Proof. intros IV. sound_tac. Qed.
  Lemma wpr_sound : In CHigh ks -> In CLow ks -> sound ks (fun s => reads ks (wp_src s) /\ True) (@wpr_step F _).
  Proof. intros IH IL. sound_tac. Qed.
End Sources.

(** ** The theorems *)

(** The sources and the moving averages the library hands out. *)
Theorem C129_sources_and_averages {F} {NF : Num F} :
  (forall k, reads (columns_of k) (src_box k)) /\
  (forall kind len (o : obj F (option F) (option F)), ma_new kind len = Ok o -> reads [] o).
Proof.
  split; [intros k; apply plain_box, src_plain|].
  intros kind len o E.
  destruct kind; cbn [ma_new] in E;
    match type of E with rbind ?n _ = _ => destruct n as [s|]; cbn [rbind] in E; [|discriminate E] end;
    injection E as <-; apply plain_box;
    [apply sma_plain|apply ema_plain|apply rma_plain|apply swma_plain].
Qed.

(** The components without a source of their own, and the indicators that read
    the bars themselves. *)
Theorem C129_bars {F} {NF : Num F} :
  (forall len, reads_only [CHigh] (highest_bars_new len) (@highest_bars_step F _)) /\
  (forall len, reads_only [CLow] (lowest_bars_new len) (@lowest_bars_step F _)) /\
  (forall na, reads_only [CHigh; CLow; CClose] (Ok na) (@tr_step F _)) /\
  (forall len, reads_only [CHigh; CLow; CClose] (atr_new len) (@atr_step F _)) /\
  (forall len, reads_only [CHigh; CLow] (aroon_new len) (@aroon_step F _)) /\
  (reads_only [COpen; CHigh; CLow; CClose] (Ok tt) (@bop_step F _)) /\
  (forall len, reads_only [CHigh; CLow; CClose; CVolume] (cmf_new len) (@cmf_step F _)) /\
  (forall p q x, reads_only [CHigh; CLow; CClose] (cks_new p q x) (@cks_step F _)) /\
  (forall len, reads_only [CHigh; CLow; CClose] (chop_new len) (@chop_step F _)) /\
  (forall len sig, reads_only [CHigh; CLow; CClose] (dmi_new len sig) (@dmi_step F _)) /\
  (forall len, reads_only [CHigh; CLow] (don_new len) (@don_step F _)) /\
  (forall len, reads_only [COpen; CHigh; CLow; CClose] (rvgi_new len) (@rvgi_step F _)) /\
  (forall a b d, reads_only [CHigh; CLow; CClose] (uo_new a b d) (@uo_step F _)) /\
  (forall len, reads_only [CHigh; CLow; CClose] (vortex_new len) (@vortex_step F _)).
Proof.
  repeat match goal with |- _ /\ _ => split end; intros; apply plain_run;
    [apply hb_plain|apply lb_plain|apply tr_plain|apply atr_plain|apply aroon_plain|apply bop_plain|apply cmf_plain
    |apply cks_plain|apply chop_plain|apply dmi_plain|apply don_plain|apply rvgi_plain|apply uo_plain|apply vortex_plain].
Qed.

(** Indicators built from sources and averages read what those read and no
    more; Williams %R reads high and low besides, the volume oscillator the
    volume. *)
Theorem C129_built {F} {NF : Num F} (ks : list column)
    (src src' : obj F unit (option F)) (ma ma' ma'' : obj F (option F) (option F)) :
  reads ks src -> reads ks src' -> reads ks ma -> reads ks ma' -> reads ks ma'' ->
  reads_only ks (Ok (ao_new src src' ma ma')) ao_step /\
  (forall len mult, reads_only ks (bb_new src len mult) bbpb_step) /\
  (forall len mult, reads_only ks (bb_new src len mult) bbw_step) /\
  (forall len, reads_only ks (cmo_new src len) cmo_step) /\
  (forall len, reads_only ks (cci_new src len) cci_step) /\
  (forall a b d, reads_only ks (crsi_new src a b d) crsi_step) /\
  (forall a b d, reads_only ks (cop_new src a b d) cop_step) /\
  reads_only ks (Ok (mkMacd src src' ma ma' ma'')) macd_step /\
  reads_only ks (Ok (mkPo src ma ma')) po_step /\
  (forall len, reads_only ks (rsii_new src len) rsii_step) /\
  (forall len l2, reads_only ks (rvoli_new src len l2) rvoli_step) /\
  (forall a b d e, reads_only ks (srsi_new src a b d e) srsi_step) /\
  reads_only (CVolume :: ks) (Ok (mkVo ma ma')) vo_step /\
  (forall len, reads_only (CHigh :: CLow :: ks) (wpr_new src len) wpr_step).
Proof.
  intros H1 H2 H3 H4 H5.
  assert (forall a, incl ks (a :: ks)) as I1 by (intros a k K; right; exact K).
  assert (forall a b, incl ks (a :: b :: ks)) as I2 by (intros a b k K; right; right; exact K).
  repeat match goal with |- _ /\ _ => split end; intros;
    (eapply sound_run;
     [ first [ apply ao_sound | apply bbpb_sound | apply bbw_sound | apply cmo_sound | apply cci_sound | apply crsi_sound
             | apply cop_sound | apply macd_sound | apply po_sound | apply rsii_sound | apply rvoli_sound | apply srsi_sound
             | apply vo_sound; cbn; tauto | apply wpr_sound; cbn; tauto ]
     | let s := fresh "s" in let E := fresh "E" in intros s E;
       cbv beta delta [ao_new bb_new cmo_new cci_new crsi_new cop_new rsii_new rvoli_new srsi_new wpr_new] in E;
       repeat match type of E with
       | rbind ?l _ = _ => destruct l; cbn [rbind] in E; [|discriminate E]
       end; injection E as <-; cbn;
       repeat match goal with |- _ /\ _ => split end; try exact I;
       first [assumption | eapply reads_incl; [|eassumption]; auto] ]).
Qed.

(** The indicators as the library configures them. *)
Theorem C129_defaults {F} {NF : Num F} :
  reads_only [CHigh; CLow] ao_default (@ao_step F _) /\
  reads_only [CHigh; CLow] aroon_default (@aroon_step F _) /\
  reads_only [CClose] bb_default (@bbpb_step F _) /\
  reads_only [CClose] bb_default (@bbw_step F _) /\
  reads_only [CHigh; CLow; CClose; CVolume] cmf_default (@cmf_step F _) /\
  reads_only [CHigh; CLow; CClose] cks_default (@cks_step F _) /\
  reads_only [CClose] cmo_default (@cmo_step F _) /\
  reads_only [CHigh; CLow; CClose] chop_default (@chop_step F _) /\
  reads_only [CHigh; CLow; CClose] cci_default (@cci_step F _) /\
  reads_only [CClose] crsi_default (@crsi_step F _) /\
  reads_only [CClose] cop_default (@cop_step F _) /\
  reads_only [CHigh; CLow; CClose] dmi_default (@dmi_step F _) /\
  reads_only [CHigh; CLow] don_default (@don_step F _) /\
  reads_only [CClose] macd_default (@macd_step F _) /\
  reads_only [CClose] po_default (@po_step F _) /\
  reads_only [CClose] rsii_default (@rsii_step F _) /\
  reads_only [COpen; CHigh; CLow; CClose] rvgi_default (@rvgi_step F _) /\
  reads_only [CClose] rvoli_default (@rvoli_step F _) /\
  reads_only [CClose] srsi_default (@srsi_step F _) /\
  reads_only [CHigh; CLow; CClose] uo_default (@uo_step F _) /\
  reads_only [CVolume] vo_default (@vo_step F _) /\
  reads_only [CHigh; CLow; CClose] vortex_default (@vortex_step F _) /\
  reads_only [CHigh; CLow; CClose] wpr_default (@wpr_step F _).
Proof.
  destruct (@C129_sources_and_averages F NF) as [HS HM].
  pose proof (HS SClose) as SC. pose proof (HS SHL2) as S2. pose proof (HS SHLC3) as S3. cbn [columns_of] in SC, S2, S3.
  assert (forall ks s, reads ks (box sma_step s)) as B1
    by (intros ks s; apply (reads_incl []); [intros k []|apply plain_box, sma_plain]).
  assert (forall ks s, reads ks (box ema_step s)) as B2
    by (intros ks s; apply (reads_incl []); [intros k []|apply plain_box, ema_plain]).
  repeat match goal with |- _ /\ _ => split end;
    try (apply plain_run;
         first [ apply aroon_plain | apply cmf_plain | apply cks_plain | apply chop_plain | apply dmi_plain
               | apply don_plain | apply rvgi_plain | apply uo_plain | apply vortex_plain ]; fail);
    (eapply sound_run;
     [ first [ apply ao_sound | apply bbpb_sound | apply bbw_sound | apply cmo_sound | apply cci_sound | apply crsi_sound
             | apply cop_sound | apply macd_sound | apply po_sound | apply rsii_sound | apply rvoli_sound | apply srsi_sound
             | apply vo_sound; cbn; tauto | apply wpr_sound; cbn; tauto ]
     | let s := fresh "s" in let E := fresh "E" in intros s E;
       cbv beta delta [ao_default ao_new bb_default bb_new cmo_default cmo_new cci_default cci_new crsi_default crsi_new
         cop_default cop_new macd_default po_default vo_default rsii_default rsii_new rvoli_default rvoli_new
         srsi_default srsi_new wpr_default wpr_new] in E; cbn [ma_new] in E;
       repeat match type of E with
       | rbind (rbind ?l _) _ = _ => destruct l; cbn [rbind] in E; [|discriminate E]
       | rbind ?l _ = _ => destruct l; cbn [rbind] in E; [|discriminate E]
       end; injection E as <-; cbn [ao_ssrc ao_lsrc ao_sma ao_lma bb_src cmo_src cci_src cr_src cp_src mc_ssrc mc_lsrc mc_sma
         mc_lma mc_sig po_src po_sma po_lma ri_src rv_src sr_src vo_sma vo_lma wp_src];
       repeat match goal with |- _ /\ _ => split end; try exact I;
       first [ assumption | apply B1 | apply B2
             | eapply reads_incl; [|exact SC]; intros k [<-|[]]; cbn; tauto ] ]).
Qed.

(** Components and signals that look at their input only: no column at all. *)
Theorem C129_inputs {F} {NF : Num F} :
  (forall n, reads_only [] n (@sma_step F _)) /\ (forall n, reads_only [] n (@sum_step F _)) /\
  (forall n, reads_only [] n (@ema_step F _)) /\ (forall n, reads_only [] n (@rma_step F _)) /\
  (forall n, reads_only [] n (@swma_step F _)) /\ (forall n, reads_only [] n (@wma_step F _)) /\
  (forall n, reads_only [] n (@change_step F _)) /\ (forall n, reads_only [] n (@roc_step F _)) /\
  (forall n, reads_only [] n (@dev_step F _)) /\ (forall n, reads_only [] n (@stdev_step F _)) /\
  (forall n, reads_only [] n (@highest_step F _)) /\ (forall n, reads_only [] n (@lowest_step F _)) /\
  (forall n, reads_only [] n (@prank_step F _)) /\ (forall n, reads_only [] n (@rsi_step F _)) /\
  (forall n, reads_only [] n (@stoch_step F _)) /\ (forall n, reads_only [] n (@fixnan_step F)) /\
  (forall n, reads_only [] n (@wv_step F)) /\ (forall n, reads_only [] n (@position_step F)) /\
  (forall n, reads_only [] n (@cross_step F _)) /\ (forall n, reads_only [] n (@crossover_step F _)) /\
  (forall n, reads_only [] n (@crossunder_step F _)) /\ (forall n, reads_only [] n (@cross_t_step F _)) /\
  (forall n, reads_only [] n (@crossover_t_step F _)) /\ (forall n, reads_only [] n (@crossunder_t_step F _)) /\
  (forall n, reads_only [] n (@thr_step F _)) /\ (forall n, reads_only [] n (@srsi_strategy_step F _)) /\
  (forall n, reads_only [] n (@cross_strategy_step F _)) /\ (forall n, reads_only [] n (@dmi_strategy_step F _)) /\
  (forall n, reads_only [] n (@aroons_step F _)).
Proof.
  repeat match goal with |- _ /\ _ => split end; intros n; apply plain_run;
    [apply sma_plain|apply sum_plain|apply ema_plain|apply rma_plain|apply swma_plain|apply wma_plain|apply change_plain
    |apply roc_plain|apply dev_plain|apply stdev_plain|apply highest_plain|apply lowest_plain|apply prank_plain|apply rsi_plain
    |apply stoch_plain|apply fixnan_plain|apply wv_plain|apply position_plain|apply cross_plain|apply crossover_plain
    |apply crossunder_plain|apply cross_t_plain|apply crossover_t_plain|apply crossunder_t_plain|apply thr_plain
    |apply srsi_strategy_plain|apply cross_strategy_plain|apply dmi_strategy_plain|apply aroons_plain].
Qed.

(** A back-test watched bar by bar, with no report attached: the output after
    each bar is the whole state of the strategy. *)
Definition watched {F} (c : ctx F) (m : unit) (s : strategy F) : res (unit * unit) := Ok (m, tt).
(** A back-test reads open and close only; the reports add high and low, and
    the bar times only where a first year is configured. *)
Theorem C129_reports {F} {NF : Num F} (cfg : sconfig F) :
  reads_only [COpen; CClose] (Ok (strategy_new cfg, tt)) (metered watched) /\
  (forall e, reads_only [COpen; CHigh; CLow; CClose] (Ok (strategy_new cfg, e)) (metered equity_step)) /\
  (forall rfr, reads_only [COpen; CHigh; CLow; CClose] (Ok (strategy_new cfg, tv_new (strategy_new cfg) rfr)) (metered tv_step)) /\
  (forall est, reads_only [COpen; CHigh; CLow; CClose] (Ok (strategy_new cfg, cobra_new (strategy_new cfg) est None)) (metered cobra_step)) /\
  (forall est y, reads_only [COpen; CHigh; CLow; CClose; CTime] (Ok (strategy_new cfg, cobra_new (strategy_new cfg) est y)) (metered cobra_step)).
Proof.
  assert (forall {M} ks (m : ctx F -> M -> strategy F -> res (M * unit)), In COpen ks -> In CClose ks ->
    plain ks m -> plain ks (metered m)) as P.
  { intros M ks m IO IC H c c' sm x A. unfold metered.
    assert (agree [COpen; CClose] c c') as A2
      by (apply (agree_incl _ ks); [intros k [<-|[<-|[]]]; assumption|exact A]).
    rewrite (strategy_plain c c' (fst sm) x A2).
    destruct (strategy_step c' (fst sm) x) as [[s u]|]; cbn [rbind]; [|reflexivity].
    now rewrite (H c c' (snd sm) s A). }
  repeat match goal with |- _ /\ _ => split end; intros.
  - apply plain_run, P; [cbn; tauto..|]. intros c c' m s A. reflexivity.
  - apply plain_run, P; [cbn; tauto..|]. eapply plain_incl; [|apply equity_plain]. intros k K; cbn in *; tauto.
  - apply plain_run, P; [cbn; tauto..|]. eapply plain_incl; [|apply tv_plain]. intros k K; cbn in *; tauto.
  - apply (sound_run _ (fun sm => cb_start_year (snd sm) = None)); [|intros s E; injection E as <-; reflexivity].
    intros c c' [s b] x A N. cbn [snd] in N. unfold metered. cbn [fst snd].
    assert (agree [COpen; CClose] c c') as A2
      by (apply (agree_incl _ [COpen; CHigh; CLow; CClose]); [intros k K; cbn in *; tauto|exact A]).
    assert (agree [CHigh; CLow] c c') as A3
      by (apply (agree_incl _ [COpen; CHigh; CLow; CClose]); [intros k K; cbn in *; tauto|exact A]).
    rewrite (strategy_plain c c' s x A2).
    destruct (strategy_step c' s x) as [[s1 u]|]; cbn [rbind]; [|split; [reflexivity|discriminate]].
    assert (forall b1, cobra_on_exit b s1 = Ok b1 -> cb_start_year b1 = None) as X.
    { intros b1. unfold cobra_on_exit. destruct (s_on_exit s1) as [t|]; [|intros E; injection E as <-; exact N].
      destruct (t_entry_price t); cbn [unwrap rbind]; [|discriminate]. intros E; injection E as <-. exact N. }
    unfold cobra_step. destruct (cobra_on_exit b s1) as [b1|]; cbn [rbind]; [|split; [reflexivity|discriminate]].
    specialize (X b1 eq_refl). rewrite (equity_plain c c' (cb_eqm b1) s1 A3).
    destruct (equity_step c' (cb_eqm b1) s1) as [[e u1]|]; cbn [rbind]; [|split; [reflexivity|discriminate]].
    rewrite X. cbn [rbind].
    destruct (mean_next _ _) as [ms mv], (sstdev_next (cb_stdev b1) _) as [ss sv], (sstdev_next (cb_neg_stdev b1) _) as [ns nv].
    cbn [rbind]. split; [reflexivity|]. intros s' o E. injection E as <- <-. reflexivity.
  - apply plain_run, P; [cbn; tauto..|]. eapply plain_incl; [|apply cobra_plain]. intros k K; cbn in *; tauto.
Qed.

(** ** No list is too long *)

Definition column_eqb (a b : column) : bool :=
  match a, b with
  | COpen, COpen | CHigh, CHigh | CLow, CLow | CClose, CClose | CVolume, CVolume | CTime, CTime => true
  | _, _ => false
  end.
Definition all_columns : list column := [COpen; CHigh; CLow; CClose; CVolume; CTime].
(** Every column but one. *)
Definition all_but (k : column) : list column := filter (fun j => negb (column_eqb k j)) all_columns.
(** Two data sets, the same in every column but [k], for which the component
    behaves differently. *)
Definition needs {S O} (k : column) (new : res S) (step : ctx f64 -> S -> unit -> res (S * O)) : Prop :=
  exists c c', agree (all_but k) c c' /\ exists n, run_new new step c (ticks n) <> run_new new step c' (ticks n).

(** Six bars, and the same with the fifth bar's value changed in one column. *)
Definition six (k : option column) : ctx f64 :=
  let pick j (a b : list Z) := qs (match k with Some k => if column_eqb k j then b else a | None => a end) in
  let y2k := 946684800000000000%Z in
  let times (z : Z) := map Some [y2k; y2k; y2k; y2k; z; y2k] in
  mkCtx (mkProvider
    (pick COpen [10; 11; 13; 12; 9; 10]%Z [10; 11; 13; 12; 8; 10]%Z)
    (pick CHigh [12; 14; 15; 13; 11; 16]%Z [12; 14; 15; 13; 17; 16]%Z)
    (pick CLow [9; 10; 12; 8; 7; 10]%Z [9; 10; 12; 8; 9; 10]%Z)
    (pick CClose [11; 13; 12; 9; 10; 15]%Z [11; 13; 12; 9; 5; 15]%Z)
    (pick CVolume [100; 120; 90; 200; 150; 300]%Z [100; 120; 90; 200; 250; 300]%Z)
    (times match k with Some CTime => 0%Z | _ => y2k end) 0 5) 0 5 6 0 false.
Lemma six_agree k : agree (all_but k) (six None) (six (Some k)).
Proof.
  split; [reflexivity|]. intros j J. apply filter_In in J. destruct J as [_ J].
  destruct k, j; cbn in J; try discriminate J; reflexivity.
Qed.
(** Floats without their well-formedness proofs, so that they can be compared
    by computation. *)
Definition bare (x : f64) := B2SF (prec := 53) (emax := 1024) x.
Lemma needs_by {S O B} k (new : res S) (step : ctx f64 -> S -> unit -> res (S * O)) (f : O -> B) n :
  rmap (map f) (run_new new step (six None) (ticks n)) <> rmap (map f) (run_new new step (six (Some k)) (ticks n)) ->
  needs k new step.
Proof.
  intros H. exists (six None), (six (Some k)). split; [apply six_agree|]. exists n. intros E. apply H. now rewrite E.
Qed.
Definition b1 (x : option f64) := option_map bare x.
Definition b2 (x : option f64 * option f64) := (b1 (fst x), b1 (snd x)).
Definition b3 (x : option f64 * option f64 * option f64) := (b2 (fst x), b1 (snd x)).
Definition b4 (x : option f64 * option f64 * option f64 * option f64) := (b3 (fst x), b1 (snd x)).
Ltac need f := apply (needs_by _ _ _ f 6); vm_compute; discriminate.

Definition one : res (obj f64 (option f64) (option f64)) := ma_new SMA 1.

Theorem C129_needed :
  needs CHigh (highest_bars_new 2) highest_bars_step /\ needs CLow (lowest_bars_new 2) lowest_bars_step /\
  (needs CHigh (atr_new 2) atr_step /\ needs CLow (atr_new 2) atr_step /\ needs CClose (atr_new 2) atr_step) /\
  (needs CHigh (aroon_new 2) aroon_step /\ needs CLow (aroon_new 2) aroon_step) /\
  (needs COpen (Ok tt) bop_step /\ needs CHigh (Ok tt) bop_step /\ needs CLow (Ok tt) bop_step /\ needs CClose (Ok tt) bop_step) /\
  (needs CHigh (cmf_new 2) cmf_step /\ needs CLow (cmf_new 2) cmf_step /\ needs CClose (cmf_new 2) cmf_step /\
   needs CVolume (cmf_new 2) cmf_step) /\
  (needs CHigh (cks_new 2 2 (fZ 1)) cks_step /\ needs CLow (cks_new 2 2 (fZ 1)) cks_step /\ needs CClose (cks_new 2 2 (fZ 1)) cks_step) /\
  (needs CHigh (chop_new 2) chop_step /\ needs CLow (chop_new 2) chop_step /\ needs CClose (chop_new 2) chop_step) /\
  (needs CHigh (dmi_new 2 2) dmi_step /\ needs CLow (dmi_new 2 2) dmi_step /\ needs CClose (dmi_new 2 2) dmi_step) /\
  (needs CHigh (don_new 2) don_step /\ needs CLow (don_new 2) don_step) /\
  (needs COpen (rvgi_new 2) rvgi_step /\ needs CHigh (rvgi_new 2) rvgi_step /\ needs CLow (rvgi_new 2) rvgi_step /\
   needs CClose (rvgi_new 2) rvgi_step) /\
  (needs CHigh (uo_new 1 2 3) uo_step /\ needs CLow (uo_new 1 2 3) uo_step /\ needs CClose (uo_new 1 2 3) uo_step) /\
  (needs CHigh (vortex_new 2) vortex_step /\ needs CLow (vortex_new 2) vortex_step /\ needs CClose (vortex_new 2) vortex_step) /\
  (needs CHigh (wpr_new (src_box SClose) 2) wpr_step /\ needs CLow (wpr_new (src_box SClose) 2) wpr_step /\
   needs CClose (wpr_new (src_box SClose) 2) wpr_step) /\
  needs CVolume (m <- one ;; l <- ma_new SMA 2 ;; Ok (mkVo m l)) vo_step /\
  (forall k j, In j (columns_of k) -> needs j (Ok tt) (src_step k)).
Proof.
  repeat match goal with |- _ /\ _ => split end;
    try (need (fun z : option Z => z); fail); try (need b1; fail); try (need b2; fail); try (need b3; fail); try (need b4; fail).
  intros k j J. destruct k; cbn in J; repeat (destruct J as [<-|J]; [need b1|]); destruct J.
Qed.

(** The same for a back-test and its reports, driven by signals. *)
Definition needs_on {S I O} (k : column) (new : res S) (step : ctx f64 -> S -> I -> res (S * O)) : Prop :=
  exists c c', agree (all_but k) c c' /\ exists xs, run_new new step c xs <> run_new new step c' xs.
Lemma needs_on_by {S I O B} k (new : res S) (step : ctx f64 -> S -> I -> res (S * O)) (f : O -> B) xs :
  rmap (map f) (run_new new step (six None) xs) <> rmap (map f) (run_new new step (six (Some k)) xs) ->
  needs_on k new step.
Proof.
  intros H. exists (six None), (six (Some k)). split; [apply six_agree|]. exists xs. intros E. apply H. now rewrite E.
Qed.
(** Trades at the next open, one unit, starting from 1000; the signals make an
    order fill at the open of the changed bar, or keep a long or a short trade
    open across it. *)
Definition cfg129 : sconfig f64 := mkSConfig false true (q 1000) false.
Definition sigs129 (k : column) : list (option direction) :=
  match k with
  | CHigh => [None; Some Short; None; None; Some Long; None]
  | CLow => [None; Some Long; None; None; Some Short; None]
  | _ => [None; Some Long; None; Some Short; None; None]
  end.
Theorem C129_needed_reports :
  (forall k, In k [COpen; CClose] -> needs_on k (Ok (strategy_new cfg129, tt)) (metered watched)) /\
  (forall k, In k [COpen; CHigh; CLow; CClose] ->
     needs_on k (Ok (strategy_new cfg129, tv_new (strategy_new cfg129) tv_default_rfr)) (metered tv_step)) /\
  (forall k, In k [COpen; CHigh; CLow; CClose; CTime] ->
     needs_on k (Ok (strategy_new cfg129, cobra_new (strategy_new cfg129) false (Some 1980%Z))) (metered cobra_step)).
Proof.
  split; [|split].
  - intros k K. cbn in K. repeat (destruct K as [<-|K];
      [match goal with |- needs_on ?k _ _ =>
         apply (needs_on_by _ _ _ (fun o : strategy f64 * unit => bare (sm_equity (s_metrics (fst o)))) (sigs129 k)) end;
       vm_compute; discriminate|]); destruct K.
  - intros k K. cbn in K. repeat (destruct K as [<-|K];
      [match goal with |- needs_on ?k _ _ =>
         apply (needs_on_by _ _ _ (fun o : strategy f64 * tvmetrics f64 => let d := tv_data (snd o) in
           (bare (tv_open_pl d), bare (tv_max_drawdown d), bare (tv_max_run_up d))) (sigs129 k)) end;
       vm_compute; discriminate|]); destruct K.
  - intros k K. cbn in K. repeat (destruct K as [<-|K];
      [match goal with |- needs_on ?k _ _ =>
         apply (needs_on_by _ _ _ (fun o : strategy f64 * cobra f64 => let d := snd o in
           (bare (cb_intra_dd d), bare (cb_eq_max_dd d), bare (cb_sharpe d))) (sigs129 k)) end;
       vm_compute; discriminate|]); destruct K.
Qed.

(** Data without any open, close or volume is all the Donchian channels need:
    the same six results as on the full data, none of them a panic. *)
Definition six_holes : ctx f64 :=
  mkCtx (mkProvider [] (p_high (c_data (six None))) (p_low (c_data (six None))) [] [] [] 0 5) 0 5 6 0 false.
Example C129_ex :
  agree [CHigh; CLow] (six None) six_holes /\
  run_new (don_new 2) don_step (six None) (ticks 6) = run_new (don_new 2) don_step six_holes (ticks 6) /\
  gives (fun a b => same_opt (fst (fst a)) (fst (fst b)) && same_opt (snd (fst a)) (snd (fst b)) && same_opt (snd a) (snd b))
    (run_new (don_new 2) don_step six_holes (ticks 6))
    [(None, None, None); (Some (q 14), Some (lit 115 10), Some (q 9)); (Some (q 15), Some (lit 125 10), Some (q 10));
     (Some (q 15), Some (lit 115 10), Some (q 8)); (Some (q 13), Some (q 10), Some (q 7)); (Some (q 16), Some (lit 115 10), Some (q 7))]
  = true.
Proof.
  assert (agree [CHigh; CLow] (six None) six_holes) as A
    by (split; [reflexivity|intros k [<-|[<-|[]]]; reflexivity]).
  split; [exact A|]. split; [|vm_compute; reflexivity].
  destruct (@C129_bars f64 F64) as (_ & _ & _ & _ & _ & _ & _ & _ & _ & _ & D & _). exact (D 2 _ _ (ticks 6) A).
Qed.
