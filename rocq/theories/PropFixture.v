(** * PropFixture: C111, golden-file tests accept exactly the right outputs. *)
From Verif Require Export MFixture PropStats PropProgram.
From Verif Require Import Inst.
From Coq Require Import Strings.String Lists.List.
Import ListNotations.
Local Open Scope string_scope.
Local Open Scope list_scope.

Section C111.
  Context {F : Type} {NF : Num F}.
  Variable secs : F -> res Z.
  (** The context a test runs in: at the first of the frame's [n] bars. *)
  Definition fixture_ctx (d : provider F) (n : nat) : ctx F := mkCtx d 0 (n - 1) n 0 true.
  (** A cell of the target column as a direction: 1 long, -1 short, anything else none. *)
  Definition coded (v : option F) (o : option direction) : Prop :=
    match o with
    | Some Long => exists x, v = Some x /\ feqb x (fZ 1) = true
    | Some Short => exists x, v = Some x /\ feqb x (fZ 1) = false /\ feqb x (fZ (-1)) = true
    | None => forall x, v = Some x -> feqb x (fZ 1) = false /\ feqb x (fZ (-1)) = false
    end.

  Lemma load_fresh df d : from_df secs df = Ok d ->
    let n := length (p_close d) in
    (0 < n)%nat /\ load_ctx secs df = Ok (mkCtx d 0 (n - 1) n 0 false) /\ p_start d = 0%nat /\ p_end d = (n - 1)%nat /\
    ctx_new d = Ok (mkCtx d 0 (n - 1) n 0 false).
  Proof.
    intros E. cbn zeta. destruct (C94_columns secs df d E) as (_ & _ & S & N).
    assert (C : ctx_new d = Ok (mkCtx d 0 (length (p_close d) - 1) (length (p_close d)) 0 false)).
    { unfold ctx_new, usub. rewrite S. cbn [Nat.leb rbind]. rewrite Nat.sub_0_r. f_equal. f_equal; lia. }
    split; [lia|]. split; [unfold load_ctx; rewrite E; exact C|]. split; [exact S|]. split; [lia|exact C].
  Qed.
  Lemma golden_is {S O} (new : res S) (step : ctx F -> S -> unit -> res (S * O)) target cmp df d e os fuel :
    from_df secs df = Ok d -> (length (p_close d) < fuel)%nat -> target df = Ok e ->
    run_new new step (fixture_ctx d (length (p_close d))) (ticks (length (p_close d))) = Ok os ->
    golden secs fuel new step target cmp df = Some (assert_iter false cmp os e).
  Proof.
    intros E L T R. destruct (load_fresh df d E) as (P & LC & PS & PE & CN). set (n := length (p_close d)) in *.
    unfold golden. rewrite LC. cbn [rbind]. unfold run_new in R. destruct new as [s|]; [|discriminate R]. cbn [rbind] in R |- *.
    rewrite T. cbn [rbind]. rewrite (loop_fresh step (fun _ => tt) d) by (first [exact CN|lia]).
    rewrite PS, PE. replace (n - 1 - 0 + 1)%nat with n by lia.
    assert (TK : map (fun _ : nat => tt) (seq 0 n) = ticks n).
    { unfold ticks. generalize 0%nat. clear. induction n as [|n IH]; intros k; [reflexivity|]. cbn [seq map repeat]. rewrite IH. reflexivity. }
    rewrite TK. change (ctx_set_running _ true) with (fixture_ctx d n). unfold run in R.
    destruct (run_st step (fixture_ctx d n) s (ticks n)) as [[sf os']|]; [|discriminate R]. cbn in R. injection R as ->. reflexivity.
  Qed.
  (** An indicator's test passes exactly when its outputs over the frame's bars
      agree with the target column: missing where the cell is missing or NaN, and
      otherwise within 1e-5. *)
  Theorem C111_values {S} (new : res S) (step : ctx F -> S -> unit -> res (S * option F)) df d col os fuel :
    from_df secs df = Ok d -> (length (p_close d) < fuel)%nat -> column_of df "_target_" col ->
    run_new new step (fixture_ctx d (length (p_close d))) (ticks (length (p_close d))) = Ok os ->
    exists r, golden secs fuel new step test_target cmp_opt_f64 df = Some r /\
      (r = Ok tt <-> agree (both near) os (map visible col)) /\ (r <> Ok tt -> r = Panic).
  Proof.
    intros E L C R. apply df_column_spec in C.
    assert (T : test_target df = Ok (series_to_f64 col)) by (unfold test_target; rewrite C; reflexivity).
    rewrite (golden_is new step test_target cmp_opt_f64 df d _ os fuel E L T R). eexists. split; [reflexivity|]. split.
    - rewrite C44_assert. unfold agree. split; intros [H1 H2]; (split; [exact H1|]); intros i x y Hx Hy.
      + apply near_cmp. exact (H2 i x y Hx Hy).
      + apply near_cmp. exact (H2 i x y Hx Hy).
    - intros N. destruct (C44_otherwise_panics cmp_opt_f64 os (series_to_f64 col)) as [H|H]; [contradiction|exact H].
  Qed.
  Lemma coded_unique v o : coded v o <-> o = trade_direction_from_f64 v.
  Proof.
    unfold trade_direction_from_f64, coded. destruct v as [x|].
    - destruct (feqb x (fZ 1)) eqn:E1.
      + destruct o as [[|]|]; split; intros H; try discriminate H; try reflexivity.
        * exists x. auto.
        * destruct H as (y & Y & H & _). injection Y as <-. congruence.
        * destruct (H x eq_refl). congruence.
      + destruct (feqb x (fZ (-1))) eqn:E2; destruct o as [[|]|]; split; intros H; try discriminate H; try reflexivity.
        * destruct H as (y & Y & H). injection Y as <-. congruence.
        * exists x. auto.
        * destruct (H x eq_refl). congruence.
        * destruct H as (y & Y & H). injection Y as <-. congruence.
        * destruct H as (y & Y & _ & H). injection Y as <-. congruence.
        * intros y Y. injection Y as <-. auto.
    - destruct o as [[|]|]; split; intros H; try discriminate H; try reflexivity; try (destruct H as (y & Y & _); discriminate Y).
      intros x X. discriminate X.
  Qed.
  (** A strategy's test passes exactly when its signals are the coded directions. *)
  Theorem C111_directions {S} (new : res S) (step : ctx F -> S -> unit -> res (S * option direction)) df d col os fuel :
    from_df secs df = Ok d -> (length (p_close d) < fuel)%nat -> column_of df "_target_" col ->
    run_new new step (fixture_ctx d (length (p_close d))) (ticks (length (p_close d))) = Ok os ->
    exists r, golden secs fuel new step test_trade_dir_target cmp_opt_dir df = Some r /\
      (r = Ok tt <-> Forall2 (fun o v => coded (visible v) o) os col) /\ (r <> Ok tt -> r = Panic).
  Proof.
    intros E L C R. apply df_column_spec in C.
    assert (T : test_trade_dir_target df = Ok (series_to_trade_dir col)) by (unfold test_trade_dir_target; rewrite C; reflexivity).
    rewrite (golden_is new step _ cmp_opt_dir df d _ os fuel E L T R). eexists. split; [reflexivity|]. split.
    - rewrite C44_assert.
      assert (DE : forall a e, cmp_opt_dir a e = true <-> a = e) by apply (C44_elements (F:=F)).
      assert (CE : series_to_trade_dir col = map (fun v => trade_direction_from_f64 (visible v)) col).
      { unfold series_to_trade_dir. apply map_ext. intros [x|]; [|reflexivity]. unfold visible, cell_to_trade_dir. destruct (fisnan x); reflexivity. }
      rewrite CE. clear -DE. revert col. induction os as [|o os IH]; intros [|v col].
      + split; [constructor|]. intros _. split; [reflexivity|]. intros i x y Hx. destruct i; discriminate Hx.
      + split; [intros [H _]; discriminate H|intros H; inversion H].
      + split; [intros [H _]; discriminate H|intros H; inversion H].
      + split.
        * intros [H1 H2]. constructor; [apply coded_unique, DE, (H2 0%nat); reflexivity|]. apply IH. cbn in H1. split; [lia|].
          intros i x y Hx Hy. apply (H2 (S i)); assumption.
        * intros H. inversion H as [|? ? ? ? H1 H2]; subst. apply IH in H2. destruct H2 as [H2 H3]. split; [cbn; lia|].
          intros [|i] x y Hx Hy; [|exact (H3 i x y Hx Hy)]. cbn in Hx, Hy. injection Hx as <-. injection Hy as <-. apply DE, coded_unique, H1.
    - intros N. destruct (C44_otherwise_panics cmp_opt_dir os (series_to_trade_dir col)) as [H|H]; [contradiction|exact H].
  Qed.
  (** A frame without the target column, or one the provider rejects, fails the test. *)
  Theorem C111_rejects {S} (new : res S) (step : ctx F -> S -> unit -> res (S * option F)) fuel df :
    from_df secs df = Panic \/ (forall col, ~ column_of df "_target_" col) ->
    golden secs fuel new step test_target cmp_opt_f64 df = Some Panic.
  Proof.
    intros H. unfold golden, load_ctx. destruct (from_df secs df) as [d|] eqn:E; [|reflexivity]. cbn [rbind].
    destruct H as [H|H]; [discriminate H|]. destruct (ctx_new d); [|reflexivity]. cbn [rbind]. destruct new; [|reflexivity]. cbn [rbind].
    unfold test_target. destruct (df_column df "_target_") as [col|] eqn:C; [|reflexivity]. destruct (H col). apply df_column_spec, C.
  Qed.

  (** The provider of a frame that holds the bars [bs]. *)
  Lemma frame_provider df bs : df_holds secs df bs -> bs <> [] ->
    exists d, from_df secs df = Ok d /\ length (p_close d) = length bs /\ fresh_over (fixture_ctx d (length bs)) bs.
  Proof.
    intros [H1 H2 H3 H4 H5 (tc & H6 & H6') H7 H8] NE.
    apply df_column_spec in H1, H2, H3, H4, H5, H6.
    assert (V : forall k, In k [b_open; b_high; b_low; b_close] -> Forall (fun b : bar F => forall x, k b = Some x -> fisnan x = false) bs).
    { intros k I. rewrite Forall_forall in H7 |- *. intros b Ib x E. specialize (H7 b Ib (k b)). destruct H7 as (y & E' & Y); [|congruence].
      cbn in I. repeat (destruct I as [<-|I]; [cbn; tauto|]). contradiction. }
    assert (D : exists ts, series_to_duration secs tc = Ok ts).
    { apply durations. apply Forall_forall. intros v I x. apply (H6' _ _ I). }
    destruct D as [ts D].
    exists (mkProvider (map b_open bs) (map b_high bs) (map b_low bs) (map b_close bs) (map b_volume bs) ts 0 (length bs - 1)).
    assert (L : (1 <= length bs)%nat) by (destruct bs; [congruence|cbn; lia]).
    split; [|split; [cbn; apply map_length|split; [repeat split|reflexivity]]].
    unfold from_df. rewrite H1, H2, H3, H4, H5, H6. cbn [rbind]. rewrite D. cbn [rbind].
    rewrite !visible_bars by (first [exact H8|apply V; cbn; tauto]). unfold provider_new, usub. rewrite map_length.
    destruct (Nat.leb_spec 1 (length bs)); [reflexivity|lia].
  Qed.
  (** The relative-strength-index test of the library
      (content/tests/relative_strength_index_test.rs:37-59): over the frame's bars,
      it passes exactly when the target column is the 14-bar RSI of the closes. *)
  Theorem C111_rsi df bs col fuel : df_holds secs df bs -> bs <> [] -> (length bs < fuel)%nat -> column_of df "_target_" col ->
    exists r, golden secs fuel (rsii_new (src_box SClose) 14) rsii_step test_target cmp_opt_f64 df = Some r /\
      (r = Ok tt <-> agree (both near) (each_prefix (rsi_out 14) (map b_close bs)) (map visible col)) /\ (r <> Ok tt -> r = Panic).
  Proof.
    intros H NE L C. destruct (frame_provider df bs H NE) as (d & E & N & FO). destruct H as [_ _ _ _ _ _ H7 _].
    apply (C111_values _ _ df d); [exact E|lia|exact C|]. rewrite N.
    assert (FE : feeds (fixture_ctx d (length bs)) (src_box SClose) (map b_close bs)).
    { apply (src_feeds SClose _ bs FO). apply Forall_forall. intros; exact I. }
    assert (WA : warmed (map b_close bs)).
    { assert (EX : exists vs, map b_close bs = map Some vs).
      { clear -H7. induction H7 as [|b bs Hb _ [vs IH]]; [exists []; reflexivity|].
        destruct (Hb (b_close b)) as (x & E & _); [cbn; tauto|]. exists (x :: vs). cbn. rewrite E, IH. reflexivity. }
      destruct EX as [vs ->]. apply warmed_map_Some. }
    pose proof (rsii_run 14 _ _ _ ltac:(lia) FE WA) as RR. rewrite map_length in RR. exact RR.
  Qed.
  Lemma fed_run {S1 S2 A O} (f : ctx F -> S1 -> unit -> res (S1 * A)) (g : ctx F -> S2 -> A -> res (S2 * O)) s1 s2 n c us vs :
    run f c s1 (ticks n) = Ok us -> run g c s2 us = Ok vs -> run (fed f g) c (s1, s2) (ticks n) = Ok vs.
  Proof.
    revert s1 s2 c us vs. induction n as [|n IH]; intros s1 s2 c us vs H1 H2.
    - cbn in H1. injection H1 as <-. exact H2.
    - cbn [ticks repeat] in H1 |- *. rewrite run_cons in H1. destruct (f c s1 tt) as [[s1' a]|] eqn:F1; [|discriminate H1]. cbn [rbind] in H1.
      destruct (run f (ctx_advance c) s1' (repeat tt n)) as [us'|] eqn:R1; [|discriminate H1]. cbn in H1. injection H1 as <-.
      rewrite run_cons in H2. destruct (g c s2 a) as [[s2' o]|] eqn:G1; [|discriminate H2]. cbn [rbind] in H2.
      destruct (run g (ctx_advance c) s2' us') as [vs'|] eqn:R2; [|discriminate H2]. cbn in H2. injection H2 as <-.
      rewrite run_cons. unfold fed at 1. cbn [fst snd]. rewrite F1. cbn [rbind]. rewrite G1. cbn [rbind].
      unfold ticks in IH. rewrite (IH _ _ _ _ _ R1 R2). reflexivity.
  Qed.
  (** The strategy test (content/tests/relative_strength_index_test.rs:82-103): it
      passes exactly when the target codes the crossings of 30 (up) and 70 (down). *)
  Theorem C111_rsi_strategy df bs col fuel : df_holds secs df bs -> bs <> [] -> (length bs < fuel)%nat -> column_of df "_target_" col ->
    exists r sigs,
      golden secs fuel (r0 <- rsii_new (src_box SClose) 14 ;; Ok (r0, rsi_strategy_default)) (fed rsii_step thr_step) test_trade_dir_target cmp_opt_dir df = Some r /\
      threshold_signals (fZ 30) (fZ 70) (each_prefix (rsi_out 14) (map b_close bs)) sigs /\
      (r = Ok tt <-> Forall2 (fun o v => coded (visible v) o) sigs col) /\ (r <> Ok tt -> r = Panic).
  Proof.
    intros H NE L C. destruct (frame_provider df bs H NE) as (d & E & N & FO). destruct H as [_ _ _ _ _ _ H7 _].
    assert (FE : feeds (fixture_ctx d (length bs)) (src_box SClose) (map b_close bs)).
    { apply (src_feeds SClose _ bs FO). apply Forall_forall. intros; exact I. }
    assert (WA : warmed (map b_close bs)).
    { assert (EX : exists vs, map b_close bs = map Some vs).
      { clear -H7. induction H7 as [|b bs Hb _ [vs IH]]; [exists []; reflexivity|].
        destruct (Hb (b_close b)) as (x & E & _); [cbn; tauto|]. exists (x :: vs). cbn. rewrite E, IH. reflexivity. }
      destruct EX as [vs ->]. apply warmed_map_Some. }
    pose proof (rsii_run 14 _ _ _ ltac:(lia) FE WA) as RR. rewrite map_length in RR.
    destruct (C49_default_thresholds (fixture_ctx d (length bs)) (each_prefix (rsi_out 14) (map b_close bs))) as (_ & _ & _ & _ & _ & (sigs & SG & TS) & _).
    unfold run_new in RR. destruct (rsii_new (src_box SClose) 14) as [r0|] eqn:RN; [|discriminate RR]. cbn [rbind] in RR |- *.
    destruct (C111_directions (Ok (r0, rsi_strategy_default)) (fed rsii_step thr_step) df d col sigs fuel E ltac:(lia) C) as (r & G & P1 & P2).
    { rewrite N. unfold run_new. cbn [rbind]. exact (fed_run _ _ _ _ _ _ _ _ RR SG). }
    exists r, sigs. auto.
  Qed.
End C111.
(** In exact arithmetic: Wilder's formula ([SpecReal.Rrsi]), each value within 1e-5. *)
Theorem C111_rsi_exact (secs : xr -> res Z) df bs col fuel xs : df_holds secs df bs -> bs <> [] -> (length bs < fuel)%nat ->
  map b_close bs = full xs -> column_of df "_target_" col ->
  exists r, golden secs fuel (rsii_new (src_box SClose) 14) rsii_step test_target cmp_opt_f64 df = Some r /\
    (r = Ok tt <-> agree (both near) (each_prefix (Rrsi 14) xs) (map visible col)) /\ (r <> Ok tt -> r = Panic).
Proof.
  intros H NE L E C. destruct (C111_rsi secs df bs col fuel H NE L C) as (r & G & P). exists r. rewrite E, C93_rsi_exact in P. auto.
Qed.

(** ** A concrete frame: the 24 bars of C93 with a target written to six decimals. *)
Definition micro (z : Z) : option f64 := Some (q z / q 1000000)%num.
Definition target111 : list (option f64) :=
  repeat None 14 ++ map micro [92857143; 80476190; 66214587; 52783219; 41461625; 50591912; 60535193; 68499977; 72733062; 73500080]%Z.
Definition with_target (t : list (option f64)) : frame (F:=f64) := df93 ++ [("_target_", t)].
Definition test111 (t : list (option f64)) := golden secs93 25 (rsii_new (src_box SClose) 14) rsii_step test_target cmp_opt_f64 (with_target t).
Example C111_holds t : df_holds secs93 (with_target t) bars93 /\ column_of (with_target t) "_target_" t.
Proof.
  split; [|apply df_column_spec; reflexivity].
  pose proof C93_holds as [_ _ _ _ _ (tc & H6 & H6') H7 H8]. split; try (apply df_column_spec; reflexivity); try assumption.
  exists tc. split; [|exact H6']. apply df_column_spec in H6. apply df_column_spec. revert H6. unfold with_target, df_column, df93. cbn. intros E. exact E.
Qed.
(** The right target passes; an error in the fourth decimal, a missing cell, or a
    column one cell short fails. *)
Example C111_ex : test111 target111 = Some (Ok tt) /\
  test111 (repeat None 23 ++ [micro 73500080]) = Some Panic /\
  test111 (firstn 23 target111 ++ [micro 73500180]) = Some Panic /\
  test111 (firstn 23 target111) = Some Panic.
Proof. repeat split; vm_compute; reflexivity. Qed.
Definition test111' (t : list (option f64)) :=
  golden secs93 25 (r0 <- rsii_new (src_box SClose) 14 ;; Ok (r0, rsi_strategy_default)) (fed rsii_step thr_step) test_trade_dir_target cmp_opt_dir (with_target t).
(** Short where the RSI falls below 70 (bar 16); 0 codes no signal. *)
Example C111_ex_strategy :
  test111' (repeat None 16 ++ [Some (q (-1))] ++ repeat None 7) = Some (Ok tt) /\
  test111' (repeat (Some (q 0)) 16 ++ [Some (q (-1))] ++ repeat None 7) = Some (Ok tt) /\
  test111' (repeat None 16 ++ [Some (q 1)] ++ repeat None 7) = Some Panic.
Proof. repeat split; vm_compute; reflexivity. Qed.
