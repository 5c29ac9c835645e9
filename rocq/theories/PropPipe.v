(** * PropPipe: C100 (whole backtests), C101 (components do not interfere),
      C102 (driving the context by hand). *)
From Verif Require Import MShare2 PropCore PropLook PropContent1 PropSafe PropMetrics2 SpecCatalogue PShare.

(** ** C100 *)
Section C100.
  Context {F : Type} {NF : Num F}.
  (** A pipeline of two components does what the second does on the outputs of
      the first, for any two components and inputs. *)
  Theorem C100_pipeline {S T I M O} (f : ctx F -> S -> I -> res (S * M)) (g : ctx F -> T -> M -> res (T * O)) s t c xs :
    run (pipe_step f g) c (s, t) xs = (ms <- run f c s xs ;; run g c t ms).
  Proof.
    revert s t c. induction xs as [|x xs IH]; intros s t c; [reflexivity|].
    rewrite !run_cons. unfold pipe_step at 1. cbn [fst snd].
    destruct (f c s x) as [[s1 m]|]; [|reflexivity]. cbn [rbind].
    destruct (g c t m) as [[t1 o]|] eqn:G; cbn [rbind].
    - rewrite IH. destruct (run f (ctx_advance c) s1 xs) as [ms|]; [|reflexivity]. cbn [rbind]. rewrite run_cons, G. reflexivity.
    - destruct (run f (ctx_advance c) s1 xs) as [ms|]; [|reflexivity]. cbn [rbind]. rewrite run_cons, G. reflexivity.
  Qed.

  (** The signal components of the library, with any thresholds. *)
  Inductive signaller : forall {T I : Type}, T -> (ctx F -> T -> I -> res (T * option direction)) -> Prop :=
  | G_threshold a b : signaller (osc_strategy_new a b) thr_step
  | G_stoch_rsi a b : signaller (osc_strategy_new a b) srsi_strategy_step
  | G_williams a b : signaller (wpr_strategy_new a b) thr_step
  | G_macd : signaller macd_strategy_new thr_step
  | G_lines : signaller cross_new cross_strategy_step
  | G_dmi t : signaller (dmi_strategy_new t) dmi_strategy_step
  | G_aroon : signaller aroons_new aroons_step.
  (** The metrics components, over the first [n] bars of [c] and for a
      strategy configured with [cfg]. *)
  Inductive meter (cfg : sconfig F) (c : ctx F) (n : nat) : forall {M : Type}, M -> (ctx F -> M -> strategy F -> res (M * unit)) -> Prop :=
  | M_equity k : meter cfg c n (equity_new k) equity_step
  | M_tradingview rfr : meter cfg c n (tv_new (strategy_new cfg) rfr) tv_step
  | M_cobra est start : (start = None \/ dated c n) -> meter cfg c n (cobra_new (strategy_new cfg) est start) cobra_step.

  Lemma signaller_total {T I} (g0 : T) (g : ctx F -> T -> I -> res (T * option direction)) c xs :
    signaller g0 g -> exists sigs, run g c g0 xs = Ok sigs /\ length sigs = length xs.
  Proof.
    intros K. assert (X : exists sigs, run g c g0 xs = Ok sigs).
    2:{ destruct X as [sigs X]. exists sigs. split; [exact X|]. apply run_length in X. exact X. }
    assert (X : forall c s x, exists r, g c s x = Ok r).
    { destruct K; intros c' s' x; try (eexists; reflexivity).
      - unfold dmi_strategy_step. destruct x as [[p m] a]. eexists; reflexivity.
      - unfold aroons_step. unfold cross_step. cbn [rbind].
        match goal with |- context [match ?e with pair _ _ => _ end] => destruct e as [[u d] m] end. eexists; reflexivity. }
    clear K. revert c g0. induction xs as [|x xs IH]; intros c s; [eexists; reflexivity|].
    rewrite run_cons. destruct (X c s x) as [[s' o] ->]. cbn [rbind]. destruct (IH (ctx_advance c) s') as [os ->]. eexists; reflexivity.
  Qed.
  Lemma bars_complete (c : ctx F) bs : fresh_over c bs -> Forall PropSafe.complete bs -> complete c (length bs).
  Proof.
    intros [H Z] HC k K col I. rewrite Z. cbn [Nat.add].
    assert (E : exists b, nth_error bs k = Some b) by (destruct (nth_error bs k) eqn:E; [eauto|apply nth_error_None in E; lia]).
    destruct E as [b E]. rewrite Forall_forall in HC. destruct (HC b (nth_error_In _ _ E)) as (B1 & B2 & B3 & B4 & _).
    destruct H as (H1 & H2 & H3 & H4 & _). rewrite H1, H2, H3, H4 in I. cbn [In] in I.
    destruct I as [<-|[<-|[<-|[<-|[]]]]]; rewrite nth_error_map, E; cbn [option_map].
    - destruct (b_open b); [eauto|congruence].
    - destruct (b_high b); [eauto|congruence].
    - destruct (b_low b); [eauto|congruence].
    - destruct (b_close b); [eauto|congruence].
  Qed.

  (** A whole backtest: an indicator of the library feeds one of its signal
      components, whose signals drive a strategy watched by a metrics
      component.  Over complete bars it runs to the end, whatever the
      configurations, and every stage does what it does on its own: [vals] are
      the values of the indicator, [sigs] the signals for those values, and
      [os] the states of the strategy and the metrics given those signals. *)
  Theorem C100_backtest {S O T M} (new : res S) (step : ctx F -> S -> unit -> res (S * O)) s
      (g0 : T) (g : ctx F -> T -> O -> res (T * option direction)) (cfg : sconfig F)
      (m0 : M) (mstep : ctx F -> M -> strategy F -> res (M * unit)) c bs :
    indicator new step -> new = Ok s -> signaller g0 g -> meter cfg c (length bs) m0 mstep ->
    fresh_over c bs -> Forall PropSafe.complete bs ->
    exists vals sigs os,
      run_new new step c (ticks (length bs)) = Ok vals /\
      run g c g0 vals = Ok sigs /\
      observed mstep cfg m0 c sigs os /\
      run (pipe_step step (pipe_step g (metered mstep))) c (s, (g0, (strategy_new cfg, m0))) (ticks (length bs)) = Ok os /\
      length vals = length bs /\ length sigs = length bs /\ length os = length bs.
  Proof.
    intros KI E KG KM FO HC.
    destruct (C69_no_panic_partial new step s c bs KI E FO HC) as (vals & RV & LV).
    destruct (signaller_total g0 g c vals KG) as (sigs & RG & LG). rewrite LV in LG.
    pose proof (bars_complete c bs FO HC) as CO. rewrite <- LG in CO, KM.
    assert (X : exists os, observed mstep cfg m0 c sigs os /\ length os = length sigs).
    { destruct KM as [k|rfr|est start D].
      - apply C89_equity, CO.
      - apply C89_tradingview, CO.
      - apply C89_cobra; [exact CO|exact D]. }
    destruct X as (os & OB & LO). exists vals, sigs, os.
    split; [exact RV|]. split; [exact RG|]. split; [exact OB|].
    split; [|repeat split; congruence].
    rewrite C100_pipeline. rewrite E in RV. cbn [run_new rbind] in RV. unfold run_new in RV. cbn [rbind] in RV. rewrite RV. cbn [rbind].
    rewrite C100_pipeline, RG. exact OB.
  Qed.
End C100.

(** ** C101, C102 *)
Section C101.
  Context {F : Type} {NF : Num F} {O : Type}.
  Notation owned := (@owned F O).

  (** Calling all components at [c], then at the next bar, ... *)
  Fixpoint calls_at (c : ctx F) (os : list (obj F unit O)) : res (list (obj F unit O) * list O) :=
    match os with
    | [] => Ok ([], [])
    | o :: t => '(o', y) <- ostep c o tt ;; '(t', ys) <- calls_at c t ;; Ok (o' :: t', y :: ys)
    end.
  Fixpoint rows (c : ctx F) (os : list (obj F unit O)) (n : nat) : res (list (list O)) :=
    match n with
    | 0 => Ok []
    | S n => '(os', ys) <- calls_at c os ;; r <- rows (ctx_advance c) os' n ;; Ok (ys :: r)
    end.

  Lemma calls_own hp (h : @handle F) c os : h_view hp h = Ok c ->
    h_calls hp (map (fun o => (h, o)) os) = ('(os', ys) <- calls_at c os ;; Ok (map (fun o => (h, o)) os', ys)).
  Proof.
    intros V. induction os as [|o os IH]; [reflexivity|]. cbn [map h_calls calls_at]. unfold h_call. cbn [fst snd]. rewrite V. cbn [rbind].
    destruct (ostep c o tt) as [[o' y]|]; [|reflexivity]. cbn [rbind]. rewrite IH.
    destruct (calls_at c os) as [[os' ys]|]; reflexivity.
  Qed.
  Lemma rows_cons c o os n : forall r rs, run ostep c o (ticks n) = Ok r -> rows c os n = Ok rs ->
    rows c (o :: os) n = Ok (map (fun p => fst p :: snd p) (combine r rs)).
  Proof.
    revert c o os. induction n as [|n IH]; intros c o os r rs RO RS.
    - cbn in RO, RS. injection RO as <-. reflexivity.
    - cbn [ticks repeat] in RO. rewrite run_cons in RO. cbn [rows calls_at] in *.
      destruct (ostep c o tt) as [[o' y]|]; [|discriminate]. cbn [rbind] in *.
      fold (ticks n) in RO. destruct (run ostep (ctx_advance c) o' (ticks n)) as [r'|] eqn:R1; [|discriminate]. cbn [rbind] in RO. injection RO as <-.
      destruct (calls_at c os) as [[os' ys]|]; [|discriminate]. cbn [rbind] in *.
      destruct (rows (ctx_advance c) os' n) as [rs'|] eqn:R2; [|discriminate]. cbn [rbind] in RS. injection RS as <-.
      rewrite (IH _ _ _ _ _ R1 R2). reflexivity.
  Qed.
  Lemma rows_ok_iff c os n : (exists rs, rows c os n = Ok rs) <-> Forall (fun o => exists r, run ostep c o (ticks n) = Ok r) os.
  Proof.
    split.
    - revert c os. induction n as [|n IH]; intros c os [rs H]; [apply Forall_forall; intros; eexists; reflexivity|].
      cbn [rows] in H. destruct (calls_at c os) as [[os' ys]|] eqn:CA; [|discriminate]. cbn [rbind] in H.
      destruct (rows (ctx_advance c) os' n) as [r|] eqn:R1; [|discriminate].
      specialize (IH _ _ (ex_intro _ _ R1)). clear H R1. revert os' ys CA IH. induction os as [|o os IHo]; intros os' ys CA HF; [constructor|].
      cbn [calls_at] in CA. destruct (ostep c o tt) as [[o' y]|] eqn:OS; [|discriminate]. cbn [rbind] in CA.
      destruct (calls_at c os) as [[t' yt]|] eqn:CT; [|discriminate]. cbn [rbind] in CA. injection CA as <- <-. inversion_clear HF as [|? ? [ro HO] HT].
      constructor; [|eapply IHo; eauto].
      cbn [ticks repeat]. rewrite run_cons, OS. cbn [rbind]. fold (ticks n). rewrite HO. eexists; reflexivity.
    - induction 1 as [|o os [r RO] _ [rs RS]].
      + exists (repeat [] n). revert c. induction n as [|n IH]; intros c; [reflexivity|]. cbn [rows calls_at rbind repeat]. rewrite IH. reflexivity.
      + eexists. eapply rows_cons; eassumption.
  Qed.
  (** Row [i] of [rs] lists what each component output at bar [i]. *)
  Lemma rows_columns c os n rs : rows c os n = Ok rs -> length rs = n /\
    forall j o, nth_error os j = Some o -> exists r, run ostep c o (ticks n) = Ok r /\
      forall i row, nth_error rs i = Some row -> nth_error row j = nth_error r i.
  Proof.
    intros R. split; [revert c os rs R; induction n as [|n IH]; intros c os rs R; cbn [rows] in R; [injection R as <-; reflexivity|];
      destruct (calls_at c os) as [[os' ys]|]; [|discriminate]; cbn [rbind] in R; destruct (rows _ _ n) eqn:E; [|discriminate]; injection R as <-; cbn; f_equal; eauto|].
    revert rs R. induction os as [|o os IH]; intros rs R j o' J; [destruct j; discriminate|].
    assert (HF : Forall (fun o => exists r, run ostep c o (ticks n) = Ok r) (o :: os)) by (apply rows_ok_iff; eauto).
    inversion_clear HF as [|? ? [r RO] HT]. apply rows_ok_iff in HT. destruct HT as [rs' RS].
    rewrite (rows_cons _ _ _ _ _ _ RO RS) in R. injection R as <-.
    assert (G : forall i row, nth_error (map (fun p : O * list O => fst p :: snd p) (combine r rs')) i = Some row ->
       exists y row', nth_error r i = Some y /\ nth_error rs' i = Some row' /\ row = y :: row').
    { clear. intros i row. rewrite nth_error_map. revert rs' i. induction r as [|y r IH]; intros [|row' rs'] [|i]; cbn; try discriminate.
      - intros H; injection H as <-. eauto.
      - apply IH. }
    destruct j as [|j]; cbn in J.
    - injection J as <-. exists r. split; [exact RO|]. intros i row HR. destruct (G i row HR) as (y & row' & -> & _ & ->). reflexivity.
    - destruct (IH rs' RS j o' J) as (r' & R' & HI). exists r'. split; [exact R'|]. intros i row HR. destruct (G i row HR) as (y & row' & _ & E & ->). cbn. apply HI, E.
  Qed.

  Lemma nth_set_same {A} (l : list A) i v : i < length l -> nth_error (set_nth l i v) i = Some v.
  Proof.
    intros L. rewrite set_nth_split by exact L. rewrite nth_error_app2; rewrite firstn_length, Nat.min_l by lia; [|lia]. rewrite Nat.sub_diag. reflexivity.
  Qed.
  Lemma len_set {A} (l : list A) i v : length (set_nth l i v) = length l.
  Proof. unfold set_nth. rewrite <- (firstn_skipn i l) at 3. rewrite !app_length. f_equal. destruct (skipn i l); reflexivity. Qed.
  Lemma nth_set_other {A} (l : list A) i j v : i <> j -> nth_error (set_nth l i v) j = nth_error l j.
  Proof.
    intros N. unfold set_nth. rewrite <- (firstn_skipn i l) at 3. destruct (Nat.ltb_spec j (length (firstn i l))).
    - rewrite !nth_error_app1 by assumption. reflexivity.
    - rewrite !nth_error_app2 by assumption. rewrite firstn_length in *.
      destruct (skipn i l) as [|a t] eqn:E; [reflexivity|].
      assert (i < length l). { destruct (Nat.ltb_spec i (length l)); [assumption|]. rewrite skipn_all2 in E by assumption. discriminate. }
      rewrite Nat.min_l in * by lia. destruct (j - i) as [|m] eqn:D; [lia|reflexivity].
  Qed.
  (** Writing the position of the loop's context. *)
  Lemma view_at hp (h : @handle F) i b : h_addr h < length hp ->
    h_view (set_nth hp (h_addr h) (mkCells i b)) h = Ok (mkCtx (h_data h) (h_first h) (h_last h) (h_bars h) i b).
  Proof. intros L. unfold h_view, vget. rewrite nth_set_same by exact L. reflexivity. Qed.

  Lemma loop_running : forall k fuel hp (h : @handle F) i os, k < fuel -> h_addr h < length hp -> i + k = h_last h ->
    nth_error hp (h_addr h) = Some (mkCells i true) ->
    rmap snd (match h_loop fuel hp h (map (fun o => (h, o)) os) with Some r => r | None => Panic end) =
      rows (mkCtx (h_data h) (h_first h) (h_last h) (h_bars h) (S i) true) os k /\
    h_loop fuel hp h (map (fun o => (h, o)) os) <> None.
  Proof.
    induction k as [|k IH]; intros fuel hp h i os FU A L N; (destruct fuel as [|fuel]; [lia|]); cbn [h_loop]; unfold h_next, vget; rewrite N; cbn [unwrap rbind cl_running cl_index negb].
    - destruct (Nat.leb_spec (i + 1) (h_last h)); [lia|]. split; [reflexivity|discriminate].
    - destruct (Nat.leb_spec (i + 1) (h_last h)); [|lia].
      rewrite (calls_own _ _ _ os (view_at hp h (i + 1) true A)). cbn [rows]. rewrite (Nat.add_comm i 1). change (1 + i) with (S i).
      destruct (calls_at _ os) as [[os' ys]|]; [|split; [reflexivity|discriminate]]. cbn [rbind].
      destruct (IH fuel (set_nth hp (h_addr h) (mkCells (S i) true)) h (S i) os') as [E NN]; [lia|rewrite len_set; exact A|lia|apply nth_set_same, A|].
      change (ctx_advance (mkCtx (h_data h) (h_first h) (h_last h) (h_bars h) (S i) true)) with (mkCtx (h_data h) (h_first h) (h_last h) (h_bars h) (S (S i)) true).
      rewrite <- E. destruct (h_loop fuel _ h _) as [[[? ?]|]|]; [split; [reflexivity|discriminate]..|congruence].
  Qed.

  (** A loop over a context drives any number of components, each owning a
      clone of it.  The loop runs to the end iff each of them does so alone;
      then the outputs of each are exactly those of the component running
      alone over the context. *)
  Theorem C101_components hp (d : provider F) hp' h c (os : list (obj F unit O)) fuel :
    p_start d <= p_end d -> h_new hp d = Ok (hp', h) -> ctx_new d = Ok c -> p_end d - p_start d + 1 < fuel ->
    let n := p_end d - p_start d + 1 in
    let alone o := run ostep (ctx_set_running c true) o (ticks n) in
    exists r, h_loop fuel hp' h (map (fun o => (h_clone h, o)) os) = Some r /\
    ((exists x, r = Ok x) <-> Forall (fun o => exists out, alone o = Ok out) os) /\
    forall hp'' rs, r = Ok (hp'', rs) -> length rs = n /\
      forall j o, nth_error os j = Some o -> exists out, alone o = Ok out /\
        forall i row, nth_error rs i = Some row -> nth_error row j = nth_error out i.
  Proof.
    intros L HN CN FU. cbn zeta. rewrite ctx_new_ok in CN by exact L. injection CN as <-.
    unfold h_new, usub in HN. destruct (Nat.leb_spec (p_start d) (p_end d)); [|lia]. cbn [rbind] in HN. injection HN as <- <-.
    set (m := p_end d - p_start d) in *. remember (m + 1) as B eqn:EB. assert (SB : B = S m) by lia. clear EB.
    set (h := mkHandle d (p_start d) (p_end d) B (length hp)).
    set (hp1 := hp ++ [mkCells (p_start d) false]).
    change (h_clone h) with h.
    assert (A : h_addr h < length hp1) by (unfold hp1; rewrite app_length; cbn; lia).
    assert (N : nth_error hp1 (h_addr h) = Some (mkCells (p_start d) false)).
    { unfold hp1. cbn [h h_addr]. rewrite nth_error_app2, Nat.sub_diag by lia. reflexivity. }
    unfold ctx_set_running. cbn [c_data c_first c_last c_bars c_index].
    set (c1 := mkCtx d (p_start d) (p_end d) B (p_start d) true).
    assert (X : rmap snd (match h_loop fuel hp1 h (map (fun o => (h, o)) os) with Some r => r | None => Panic end) = rows c1 os (S m) /\
       h_loop fuel hp1 h (map (fun o => (h, o)) os) <> None).
    { destruct fuel as [|fuel]; [lia|]. cbn [h_loop]. unfold h_next, vget. rewrite N. cbn [unwrap rbind cl_running cl_index negb].
      rewrite (calls_own _ _ _ os (view_at hp1 h (p_start d) true A)). cbn [rows].
      change (mkCtx (h_data h) (h_first h) (h_last h) (h_bars h) (p_start d) true) with c1.
      destruct (calls_at c1 os) as [[os' ys]|]; [|split; [reflexivity|discriminate]]. cbn [rbind].
      destruct (loop_running m fuel (set_nth hp1 (h_addr h) (mkCells (p_start d) true)) h (p_start d) os') as [E NN];
        [lia|rewrite len_set; exact A|cbn; lia|apply nth_set_same, A|].
      change (ctx_advance c1) with (mkCtx (h_data h) (h_first h) (h_last h) (h_bars h) (S (p_start d)) true).
      rewrite <- E. destruct (h_loop fuel _ h _) as [[[? ?]|]|]; [split; [reflexivity|discriminate]..|congruence]. }
    rewrite <- SB in X. destruct X as [E NN]. destruct (h_loop fuel hp1 h _) as [r|] eqn:HL; [|congruence]. exists r. split; [reflexivity|].
    split.
    - rewrite <- rows_ok_iff, <- E. destruct r as [[x1 x2]|]; cbn [rmap]; split; intros [x X]; try discriminate; eauto.
    - intros hp'' rs ->. cbn [rmap snd] in E. symmetry in E. exact (rows_columns _ _ _ _ E).
  Qed.

  (** Components owning another context are not moved by the loop: what they
      see stays where it is. *)
  Theorem C101_other_context (hp : heap) (h h' : @handle F) hp' o : h_addr h <> h_addr h' ->
    h_next hp h = Ok (hp', o) -> h_view hp' h' = h_view hp h'.
  Proof.
    intros N E. unfold h_next in E. destruct (vget hp (h_addr h)) as [k|]; [|discriminate]. cbn [rbind] in E.
    assert (X : exists v, hp' = set_nth hp (h_addr h) v).
    { destruct (negb (cl_running k)); [injection E as <- _; eauto|]. destruct (_ <=? _); injection E as <- _; eauto. }
    destruct X as [v ->]. unfold h_view, vget. rewrite nth_set_other by exact N. reflexivity.
  Qed.

  Lemma drive_rows : forall n i hp (h : @handle F) os b, h_addr h < length hp ->
    (exists i0, nth_error hp (h_addr h) = Some (mkCells i0 b)) ->
    rmap snd (h_drive hp h (seq i n) (map (fun o => (h, o)) os)) =
    rows (mkCtx (h_data h) (h_first h) (h_last h) (h_bars h) i b) os n.
  Proof.
    induction n as [|n IH]; intros i hp h os b A [i0 N]; [reflexivity|]. cbn [seq h_drive rows]. unfold vget at 1. rewrite N. cbn [unwrap rbind cl_running].
    rewrite (calls_own _ _ _ os (view_at hp h i b A)).
    destruct (calls_at _ os) as [[os' ys]|]; [|reflexivity]. cbn [rbind].
    specialize (IH (S i) (set_nth hp (h_addr h) (mkCells i b)) h os' b). rewrite len_set in IH.
    specialize (IH A (ex_intro _ i (nth_set_same _ _ _ A))).
    change (ctx_advance (mkCtx (h_data h) (h_first h) (h_last h) (h_bars h) i b)) with (mkCtx (h_data h) (h_first h) (h_last h) (h_bars h) (S i) b).
    rewrite <- IH. destruct (h_drive _ h (seq (S i) n) _) as [[? ?]|]; reflexivity.
  Qed.
  (** Moving a new context by hand through [first..=last] runs the components
      owning it over the same bars. *)
  Theorem C102_by_hand hp (d : provider F) hp' h c (os : list (obj F unit O)) :
    p_start d <= p_end d -> h_new hp d = Ok (hp', h) -> ctx_new d = Ok c ->
    let n := p_end d - p_start d + 1 in
    let alone o := run ostep c o (ticks n) in
    let r := h_drive hp' h (seq (h_first h) n) (map (fun o => (h_clone h, o)) os) in
    ((exists x, r = Ok x) <-> Forall (fun o => exists out, alone o = Ok out) os) /\
    forall hp'' rs, r = Ok (hp'', rs) -> length rs = n /\
      forall j o, nth_error os j = Some o -> exists out, alone o = Ok out /\
        forall i row, nth_error rs i = Some row -> nth_error row j = nth_error out i.
  Proof.
    intros L HN CN. cbn zeta. rewrite ctx_new_ok in CN by exact L. injection CN as <-.
    unfold h_new, usub in HN. destruct (Nat.leb_spec (p_start d) (p_end d)); [|lia]. cbn [rbind] in HN. injection HN as <- <-.
    set (m := p_end d - p_start d) in *. remember (m + 1) as B eqn:EB. assert (SB : B = S m) by lia. clear EB.
    set (h := mkHandle d (p_start d) (p_end d) B (length hp)).
    set (hp1 := hp ++ [mkCells (p_start d) false]). change (h_clone h) with h.
    assert (A : h_addr h < length hp1) by (unfold hp1; rewrite app_length; cbn; lia).
    assert (N : nth_error hp1 (h_addr h) = Some (mkCells (p_start d) false)).
    { unfold hp1. cbn [h h_addr]. rewrite nth_error_app2, Nat.sub_diag by lia. reflexivity. }
    pose proof (drive_rows B (h_first h) hp1 h os false A (ex_intro _ _ N)) as E.
    match type of E with _ = rows ?c os _ => set (c1 := c) in * end.
    match goal with |- context [run ostep ?c _ (ticks B)] => change c with c1 end.
    split.
    - rewrite <- rows_ok_iff, <- E. destruct (h_drive hp1 h _ _) as [[x1 x2]|]; cbn [rmap]; split; intros [x X]; try discriminate; eauto.
    - intros hp'' rs HE. rewrite HE in E. cbn [rmap snd] in E. symmetry in E. exact (rows_columns _ _ _ _ E).
  Qed.
  (** For the components of the library that is the same as looping: the
      context of a loop differs only in its [running] flag. *)
  Theorem C102_same_as_loop {S I P} (new : res S) (step : ctx F -> S -> I -> res (S * P)) c xs :
    component new step -> run_new new step (ctx_set_running c true) xs = run_new new step c xs.
  Proof. intros K. apply (C26_same_past_same_run new step (ctx_set_running c true) c xs K). split; [reflexivity|repeat split]. Qed.
End C101.

(** A backtest of the stochastic RSI over six complete bars meets the
    hypotheses of C100 (timestamps are missing, so no start year). *)
Example C100_ex : indicator (F := f64) srsi_default srsi_step /\ (exists s, srsi_default (F := f64) = Ok s) /\
  signaller (srsi_strategy_default (F := f64)) srsi_strategy_step /\
  meter sconfig_default ctx6 6 (cobra_new (strategy_new sconfig_default) true None) cobra_step /\
  fresh_over ctx6 bars6 /\ Forall PropSafe.complete bars6.
Proof.
  split; [exact (I_srsi SClose 14 14 3 3)|]. split; [eexists; unfold srsi_default; reflexivity|]. split; [exact (G_stoch_rsi _ _)|].
  split; [apply M_cobra; left; reflexivity|]. split; [exact ctx6_fresh|]. exact (proj1 C69_ex).
Qed.
(** Two components over a context, a second context in the heap. *)
Example C101_ex : exists hp h hp' h',
  h_new [] (c_data ctx6) = Ok (hp, h) /\ h_new hp (c_data ctx6) = Ok (hp', h') /\ h_addr h <> h_addr h' /\
  p_start (c_data ctx6) <= p_end (c_data ctx6) /\
  match h_loop 8 hp' h' [(h_clone h', box (fun c s _ => Ok (S s, (s, c_index c))) 10); (h', box (fun c s _ => Ok (s, (c_index c, s))) 0)] with
  | Some (Ok (_, rs)) => rs = [[(10, 0); (0, 0)]; [(11, 1); (1, 0)]; [(12, 2); (2, 0)]; [(13, 3); (3, 0)]; [(14, 4); (4, 0)]; [(15, 5); (5, 0)]]
  | _ => False end.
Proof. do 4 eexists. split; [reflexivity|]. split; [reflexivity|]. split; [discriminate|]. split; [cbn; lia|]. reflexivity. Qed.
Example C102_ex : component (F := f64) (sma_new 14) sma_step /\ exists hp h, h_new [] (c_data ctx6) = Ok (hp, h) /\
  match h_drive hp h (seq 0 6) [(h, box (fun c s _ => Ok (S s, (s, c_index c))) 10)] with
  | Ok (_, rs) => rs = [[(10, 0)]; [(11, 1)]; [(12, 2)]; [(13, 3)]; [(14, 4)]; [(15, 5)]] | Panic => False end.
Proof. split; [constructor|]. do 2 eexists. split; reflexivity. Qed.
