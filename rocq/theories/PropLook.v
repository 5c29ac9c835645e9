(** * PropLook: C26, no look-ahead. *)
From Verif Require Import PCausal PContent3 Inst PropCore.

Section C26.
  Context {F : Type} {NF : Num F}.

  (** Over contexts that show the same bars up to bar [index + length xs - 1],
      a component does the same thing in every one of the first [length xs]
      calls: the same outputs, or a panic in both. *)
  Theorem C26_same_past_same_run {S I O} (new : res S) (step : ctx F -> S -> I -> res (S * O)) c c' xs :
    component new step -> same_until (c_index c + length xs) c c' ->
    run_new new step c xs = run_new new step c' xs.
  Proof.
    intros K H. destruct (catalogue_causal new step K) as (P & HC & HN).
    unfold run_new. destruct new as [s|]; [|reflexivity]. cbn [rbind]. unfold run.
    rewrite (causal_run P step HC xs c c' s (HN s eq_refl) H). reflexivity.
  Qed.

  (** The outputs of a longer run over [c] start with those of the run over
      [c'], which has the same bars up to there and anything (or nothing)
      after. *)
  Theorem C26_no_look_ahead {S I O} (new : res S) (step : ctx F -> S -> I -> res (S * O)) c c' xs ys os :
    component new step -> same_until (c_index c + length xs) c c' ->
    run_new new step c (xs ++ ys) = Ok os ->
    run_new new step c' xs = Ok (firstn (length xs) os).
  Proof.
    intros K H R. rewrite <- (C26_same_past_same_run new step c c' xs K H).
    unfold run_new in *. destruct new as [s|]; [|discriminate]. cbn [rbind] in *.
    exact (run_st_prefix _ _ _ _ _ _ R).
  Qed.

  (** The same for the user-level loop over two providers: [d'] ends no later
      than [d] and has the same bars up to its end. *)
  Theorem C26_loop {St I O} (new : res St) (step : ctx F -> St -> I -> res (St * O)) (input : nat -> I)
      (d d' : provider F) c c' s fuel fuel' r :
    component new step -> new = Ok s ->
    p_start d = p_start d' -> p_start d' <= p_end d' <= p_end d -> same_data (S (p_end d')) d d' ->
    ctx_new d = Ok c -> ctx_new d' = Ok c' ->
    p_end d - p_start d + 1 < fuel -> p_end d' - p_start d' + 1 < fuel' ->
    loop fuel step input c s = Some (Ok r) ->
    exists r', loop fuel' step input c' s = Some (Ok r') /\
      snd r' = firstn (p_end d' - p_start d' + 1) (snd r).
  Proof.
    intros K En Es [L1 L2] HD Hc Hc' Hf Hf' HL.
    destruct (C01_loop_is_run step input d c s fuel ltac:(lia) Hc Hf) as (r1 & E1 & R1 & I1).
    destruct (C01_loop_is_run step input d' c' s fuel' ltac:(lia) Hc' Hf') as (r2 & E2 & R2 & I2).
    rewrite E1 in HL. injection HL as ->. cbn [rmap] in R1.
    set (n := p_end d' - p_start d' + 1) in *. set (m := p_end d - p_start d + 1) in *.
    assert (Em : seq (p_start d) m = seq (p_start d') n ++ seq (p_start d' + n) (m - n)).
    { rewrite Es, <- seq_app. f_equal. subst m n. lia. }
    rewrite Em, map_app in R1.
    assert (X : run_new new step (ctx_set_running c' true) (map input (seq (p_start d') n)) = Ok (firstn n (snd r))).
    { pose proof (C26_no_look_ahead new step (ctx_set_running c true) (ctx_set_running c' true)
        (map input (seq (p_start d') n)) (map input (seq (p_start d' + n) (m - n))) (snd r) K) as X.
      rewrite map_length, seq_length in X. apply X.
      - split; [congruence|]. rewrite I1.
        assert (Ec : c_data (ctx_set_running c true) = d).
        { unfold ctx_new in Hc. destruct (usub _ _); [|discriminate]. injection Hc as <-. reflexivity. }
        assert (Ec' : c_data (ctx_set_running c' true) = d').
        { unfold ctx_new in Hc'. destruct (usub _ _); [|discriminate]. injection Hc' as <-. reflexivity. }
        rewrite Ec, Ec'. replace (p_start d + n) with (S (p_end d')) by (subst n; lia). exact HD.
      - rewrite En. cbn [run_new rbind]. symmetry. exact R1. }
    rewrite En in X. cbn [run_new rbind] in X. rewrite X in R2.
    destruct r2 as [r2|]; [|discriminate]. injection R2 as R2. exists r2. split; [exact E2 | exact R2].
  Qed.
End C26.

(** A whole backtest is a component: the RSI of the close, its strategy, the
    trading strategy, looked at after every bar. *)
Example C26_ex_backtest : component (F := f64)
  (pipe_new (rsii_new (src_box SClose) 2) (pipe_new (Ok (osc_strategy_new (q 30) (q 70))) (Ok (strategy_new sconfig_default))))
  (pipe_step rsii_step (pipe_step thr_step (shown strategy_step))).
Proof. repeat constructor. Qed.
(** Two different continuations of the same three bars. *)
Definition ctx6' : ctx f64 :=
  mkCtx (let d := c_data ctx6 in
         mkProvider (firstn 3 (p_open d)) (firstn 3 (p_high d) ++ [Some (q 99)]) (firstn 3 (p_low d) ++ [None])
           (firstn 3 (p_close d) ++ [Some (q 50)]) (firstn 3 (p_volume d)) (firstn 3 (p_time d)) 0 3) 0 3 4 0 false.
Example C26_ex_same : same_until 3 ctx6 ctx6'.
Proof. repeat split. Qed.
Example C26_ex : gives same_opt (run_new (wpr_new (src_box SClose) 2) wpr_step ctx6 (ticks 5))
    (match run_new (wpr_new (src_box SClose) 2) wpr_step ctx6' (ticks 3) with Ok l => l | Panic => [] end ++
     [Some (fmul (fdiv (q (-6)) (q 7)) (q 100)); Some (fmul (fdiv (q (-3)) (q 6)) (q 100))]) = true.
Proof. vm_compute. reflexivity. Qed.
