(** * PropRespond (C130): a higher last price is never held against the market.
    Two histories that differ only in their last price give indicator values,
    and crossing signals, in the order of those prices: in f64, rounding and
    overflow included. *)
From Coq Require Import Reals Lra Lia Psatz.
From Flocq Require Import Core Relative IEEE754.BinarySingleNaN.
From Verif Require Import PTa4 PContent3 Inst PIeee PIeee2 PMono PropTa3 PropContent1 PropContent2 PropContent3 PropContent4 PropContent5 PropRound PropForget PropSafe.
From Verif Require Import PropRange PropTa1 PropWin.
Local Open Scope R_scope.

(** The second of two prices is at least as high; both are finite. *)
Definition higher (v w : f64) : Prop := is_finite v = true /\ is_finite w = true /\ Bleb v w = true.
(** Two runs, the first over the lower last price: they panic together, and
    otherwise end in values of which the first is not the greater one (this
    includes: either of them may be NaN). *)
Definition in_order (r r' : res (list (option f64))) : Prop :=
  match r, r' with
  | Ok os, Ok ps => not_greater (last os None) (last ps None)
  | Panic, Panic => True
  | _, _ => False
  end.

(** The output of one call, if it does not panic. *)
Definition snd_ok {A B} (r : res (A * B)) : option B := match r with Ok p => Some (snd p) | Panic => None end.

Section Respond.
  Variable log10 : f64 -> f64.
  #[local] Instance N130 : Num f64 := IEEE log10.
  #[local] Instance O130 : OrdNum f64 := IEEEOrd log10.
  Notation zero := (f64_ofZ 0).

  Lemma last_each {A B} (f : list A -> B) h x d : last (each_prefix f (h ++ [x])) d = f (h ++ [x]).
  Proof. rewrite each_prefix_snoc. apply last_last. Qed.
  Lemma by_last {A B} (f : list A -> option f64) (g : list B -> option f64) h x h' y : not_greater (f (h ++ [x])) (g (h' ++ [y])) ->
    in_order (Ok (each_prefix f (h ++ [x]))) (Ok (each_prefix g (h' ++ [y]))).
  Proof. intros H. unfold in_order. rewrite !last_each. exact H. Qed.

  Lemma nan_below (x y : f64) : is_nan x = true -> not_above x y.
  Proof. intros N. apply not_above_cases. left. exact N. Qed.
  Lemma nan_over (x y : f64) : is_nan y = true -> not_above x y.
  Proof. intros N. apply not_above_cases. right. left. exact N. Qed.
  Lemma not_greater_refl x : not_greater x x.
  Proof. destruct x; [|exact I]. apply not_above_refl. Qed.
  Lemma higher_above v w : higher v w -> not_above v w.
  Proof. intros (Fv & Fw & B). exact (@Laws.le_not_lt f64 N130 O130 v w B). Qed.
  (** A quotient of two amounts grows with the first and falls with the second. *)
  Lemma zero_below (y : f64) : pz y -> not_above (B754_zero false) y.
  Proof. intros [N|S0]; [apply nan_over; exact N|]. destruct y as [s|s| |s m e B]; cbn in S0; subst; reflexivity. Qed.
  Lemma quot_mono (u u' d d' : f64) : pz u -> pz u' -> pz d -> pz d' -> not_above u u' -> not_above d' d ->
    not_above (Bdiv mode_NE u d) (Bdiv mode_NE u' d').
  Proof.
    intros Pu Pu' Pd Pd' U D.
    assert (PQ : pz (Bdiv mode_NE u' d')) by (apply (div_pz log10); assumption).
    destruct (is_nan u) eqn:Nu; [apply nan_below; destruct u; try discriminate; reflexivity|].
    destruct (is_nan u') eqn:Nu'; [apply nan_over; destruct u'; try discriminate; reflexivity|].
    destruct (is_nan d) eqn:Nd; [apply nan_below; destruct d; try discriminate; destruct u; reflexivity|].
    destruct (is_nan d') eqn:Nd'; [apply nan_over; destruct d'; try discriminate; destruct u'; reflexivity|].
    destruct Pu as [?|Su]; [congruence|]. destruct Pu' as [?|Su']; [congruence|]. destruct Pd as [?|Sd]; [congruence|]. destruct Pd' as [?|Sd']; [congruence|].
    destruct (is_finite u) eqn:Fu.
    2:{ destruct u as [?|[|]| |]; try discriminate. assert (u' = B754_infinity false) as -> by (destruct u' as [?|[|]| |[|] ? ? ?]; try discriminate; reflexivity).
        destruct d' as [s|s| |s ? ? ?]; cbn in Sd'; subst; try discriminate; destruct d as [s|s| |s ? ? ?]; cbn in Sd; subst; try discriminate; reflexivity. }
    destruct (is_finite u') eqn:Fu'.
    2:{ destruct u' as [?|[|]| |]; try discriminate. destruct d' as [s|s| |s ? ? ?]; cbn in Sd'; subst; try discriminate; apply not_above_cases; cbn; auto. }
    destruct (is_finite d) eqn:Fd.
    2:{ destruct d as [?|[|]| |]; try discriminate. replace (Bdiv mode_NE u (B754_infinity false)) with (B754_zero (prec := 53) (emax := 1024) false); [apply zero_below; exact PQ|].
        destruct u as [s|s| |s ? ? ?]; cbn in Su; subst; try discriminate; reflexivity. }
    destruct (is_finite d') eqn:Fd'.
    2:{ destruct d' as [?|[|]| |]; try discriminate. destruct d as [?|[|]| |[|] ? ? ?]; try discriminate. }
    destruct d' as [s|?| |s m e B]; try discriminate; cbn in Sd'; subst s.
    - destruct u' as [s|?| |s m e B]; try discriminate; cbn in Su'; subst s; apply not_above_cases; cbn; auto.
    - assert (P' : 0 < B2R (B754_finite false m e B : f64)) by (apply F2R_gt_0; reflexivity).
      apply not_above_cases in D. destruct D as [D|[D|[D|[D|(_ & _ & D)]]]]; try discriminate; try congruence; try (subst d; discriminate).
      apply not_above_cases in U. destruct U as [U|[U|[U|[U|(_ & _ & U)]]]]; try (subst; discriminate); try congruence.
      assert (U0 : 0 <= B2R u) by (apply B2R_pz; right; exact Su).
      refine (rounded_mono _ _ _ _ (div_rounded u d Fu Fd _) (div_rounded u' _ Fu' Fd' P') _); [lra|].
      unfold Rdiv. apply Rmult_le_compat; [lra|apply Rlt_le, Rinv_0_lt_compat; lra|lra|]. apply Rinv_le; lra.
  Qed.

  (** ** Change and rate of change *)
  Theorem C130_change len (c : ctx f64) h v w : (1 <= len)%nat -> higher v w ->
    in_order (run_new (change_new len) change_step c (h ++ [Some v])) (run_new (change_new len) change_step c (h ++ [Some w])).
  Proof.
    intros L H. rewrite !C16_change_partial by exact L. apply by_last. rewrite !newest_snoc. destruct len as [|n]; [lia|]. rewrite !ago_S_snoc. cbn [join].
    destruct (join (ago n h)) as [o|]; [|exact I]. destruct (o ==? fZ 0)%num; [exact I|]. apply minus_above; [apply higher_above; exact H|apply not_above_refl].
  Qed.
  Theorem C130_roc len (c : ctx f64) h v w : (1 <= len)%nat -> higher v w -> (forall o, In (Some o) h -> nonnegative o) ->
    in_order (run_new (roc_new len) roc_step c (h ++ [Some v])) (run_new (roc_new len) roc_step c (h ++ [Some w])).
  Proof.
    intros L H NN. rewrite !C17_roc by exact L. apply by_last. rewrite !newest_snoc. destruct len as [|n]; [lia|]. rewrite !ago_S_snoc. cbn [join].
    destruct (join (ago n h)) as [o|] eqn:Eo; [|exact I]. destruct (o ==? fZ 0)%num eqn:Z0; [exact I|].
    assert (Io : In (Some o) h).
    { destruct (ago n h) as [y|] eqn:A; [|discriminate]. cbn in Eo. subst y. unfold ago in A. destruct (n <? length h)%nat; [|discriminate]. apply nth_error_In in A. exact A. }
    specialize (NN o Io). apply (nonneg_nz log10) in NN.
    assert (P : unsigned o). { destruct NN as [P|P]; [exact P|]. subst o. discriminate. }
    cbn [not_greater]. apply div_mono; [exact P|]. apply mult_mono; [right; reflexivity|]. apply minus_above; [apply higher_above; exact H|apply not_above_refl].
  Qed.

  (** ** RSI *)
  Lemma nan_minus (v p : f64) : is_finite v = true -> is_nan (Bminus mode_NE v p) = is_nan p.
  Proof.
    intros Fv. destruct (is_finite p) eqn:Fp.
    - assert (is_nan p = false) as -> by (destruct p; try discriminate; reflexivity).
      destruct (minus_rounded v p Fv Fp) as [(F & _)|[[-> _]|[-> _]]]; try reflexivity. destruct (Bminus mode_NE v p); try discriminate; reflexivity.
    - destruct p as [s|s| |s m e B]; try discriminate; destruct v; try discriminate; reflexivity.
  Qed.
  Lemma gain_above (v w p : f64) : higher v w -> not_above (fmax (fsub v p) (fZ 0)) (fmax (fsub w p) (fZ 0)).
  Proof.
    intros H. assert (Nv := nan_minus v p (proj1 H)). assert (Nw := nan_minus w p (proj1 (proj2 H))).
    assert (M : not_above (Bminus mode_NE v p) (Bminus mode_NE w p)) by (apply minus_above; [apply higher_above; exact H|apply not_above_refl]).
    change (@fsub f64 N130) with (Bminus (prec := 53) (emax := 1024) mode_NE). generalize dependent (Bminus mode_NE v p : f64). generalize dependent (Bminus mode_NE w p : f64). intros b Nw a Nv M.
    unfold fmax. change (fisnan a) with (is_nan a). change (fisnan b) with (is_nan b). rewrite Nv, Nw. destruct (is_nan p); [apply not_above_refl|]. cbn [fisnan].
    change (fisnan (fZ 0)) with false. cbv iota. destruct (a <? fZ 0)%num eqn:A, (b <? fZ 0)%num eqn:B; [apply not_above_refl| | |exact M].
    - unfold not_above. exact B.
    - exfalso. assert (K : (a <=? b)%num = true) by (apply Laws.not_lt_le; [exact Nv|exact Nw|exact M]).
      pose proof (Laws.le_lt_trans _ _ _ K B). congruence.
  Qed.
  Lemma loss_above (v w p : f64) : higher v w -> not_above (fneg (fmin (fsub w p) (fZ 0))) (fneg (fmin (fsub v p) (fZ 0))).
  Proof.
    intros H. assert (Nv := nan_minus v p (proj1 H)). assert (Nw := nan_minus w p (proj1 (proj2 H))).
    assert (M : not_above (Bminus mode_NE v p) (Bminus mode_NE w p)) by (apply minus_above; [apply higher_above; exact H|apply not_above_refl]).
    apply opp_above.
    change (@fsub f64 N130) with (Bminus (prec := 53) (emax := 1024) mode_NE). generalize dependent (Bminus mode_NE v p : f64). generalize dependent (Bminus mode_NE w p : f64). intros b Nw a Nv M.
    unfold fmin. change (fisnan a) with (is_nan a). change (fisnan b) with (is_nan b). rewrite Nv, Nw. destruct (is_nan p); [apply not_above_refl|].
    change (fisnan (fZ 0)) with false. cbv iota. destruct (fZ 0 <? a)%num eqn:A, (fZ 0 <? b)%num eqn:B; [apply not_above_refl| | |exact M].
    - exfalso. assert (K : (a <=? b)%num = true) by (apply Laws.not_lt_le; [exact Nv|exact Nw|exact M]).
      pose proof (Laws.lt_le_trans _ _ _ A K). congruence.
    - unfold not_above. exact A.
  Qed.
  Lemma refl_all l : Forall2 not_above l l.
  Proof. induction l; constructor; [apply not_above_refl|assumption]. Qed.
  Lemma present_last (h : list (option f64)) x : present (h ++ [x]) = present h ++ match x with Some v => [v] | None => [] end.
  Proof. rewrite PExact.present_app'. destruct x; reflexivity. Qed.
  Lemma rsi_last len h v w : (2 <= len)%nat -> (Z.of_nat len <= 2 ^ 53)%Z -> higher v w -> not_greater (rsi_out len (h ++ [Some v])) (rsi_out len (h ++ [Some w])).
  Proof.
    intros L L' H. unfold rsi_out, ema_out.
    pose proof (gains_nz log10 (h ++ [Some v])) as G1. pose proof (gains_nz log10 (h ++ [Some w])) as G2.
    pose proof (losses_nz log10 (h ++ [Some v])) as G3. pose proof (losses_nz log10 (h ++ [Some w])) as G4.
    pose proof (rma_weight log10 len ltac:(lia) L') as W. pose proof (weight_complement log10 _ W) as W'. destruct W as (_ & _ & W).
    assert (LN : unsigned (fnat len)) by (apply (pz_fZ log10); lia).
    assert (A1 : Forall2 not_above (present (gains (h ++ [Some v]))) (present (gains (h ++ [Some w])))).
    { rewrite !gains_snoc, !present_last. apply Forall2_app; [apply refl_all|]. destruct (join (newest h)) as [p|]; cbn [rsi_gain]; constructor; [apply gain_above; exact H|constructor]. }
    assert (A2 : Forall2 not_above (present (losses (h ++ [Some w]))) (present (losses (h ++ [Some v])))).
    { rewrite !losses_snoc, !present_last. apply Forall2_app; [apply refl_all|]. destruct (join (newest h)) as [p|]; cbn [rsi_loss]; constructor; [apply loss_above; exact H|constructor]. }
    pose proof (smooth_ordered log10 _ len _ _ W W' LN A1) as B1. pose proof (smooth_ordered log10 _ len _ _ W W' LN A2) as B2.
    pose proof (fun e => rma_pz log10 len _ e L L' G1) as P1. pose proof (fun e => rma_pz log10 len _ e L L' G2) as P2.
    pose proof (fun e => rma_pz log10 len _ e L L' G3) as P3. pose proof (fun e => rma_pz log10 len _ e L L' G4) as P4.
    destruct (ema_val (rma_alpha_of len) len (present (gains (h ++ [Some v])))) as [u|], (ema_val (rma_alpha_of len) len (present (gains (h ++ [Some w])))) as [u'|]; try contradiction; [|exact I].
    destruct (ema_val (rma_alpha_of len) len (present (losses (h ++ [Some v])))) as [d|], (ema_val (rma_alpha_of len) len (present (losses (h ++ [Some w])))) as [d'|]; try contradiction; [|exact I].
    specialize (P1 _ eq_refl). specialize (P2 _ eq_refl). specialize (P3 _ eq_refl). specialize (P4 _ eq_refl). cbn [not_greater] in B1, B2.
    cbn [rsi_val not_greater]. assert (Q := quot_mono u u' d d' P1 P2 P3 P4 B1 B2).
    assert (R0 : not_above (fadd (fZ 1) (fdiv u d)) (fadd (fZ 1) (fdiv u' d'))) by (apply plus_mono; [apply not_above_refl|exact Q]).
    assert (N1 : pz (fadd (fZ 1) (fdiv u d))) by (apply (plus_pz log10); [right; reflexivity|left; apply (div_pz log10); assumption]).
    assert (N2 : pz (fadd (fZ 1) (fdiv u' d'))) by (apply (plus_pz log10); [right; reflexivity|left; apply (div_pz log10); assumption]).
    apply minus_above; [apply not_above_refl|]. apply quot_mono; [right; reflexivity|right; reflexivity|exact N2|exact N1|apply not_above_refl|exact R0].
  Qed.
  Lemma warmed_last (h : list (option f64)) v w : warmed (h ++ [Some v]) -> warmed (h ++ [Some w]).
  Proof. intros W. apply warmed_snoc in W. apply warmed_snoc. split; [apply W|discriminate]. Qed.
  Theorem C130_rsi len (c : ctx f64) h v w : (2 <= len)%nat -> (Z.of_nat len <= 2 ^ 53)%Z -> warmed (h ++ [Some v]) -> higher v w ->
    in_order (run_new (rsi_new len) rsi_step c (h ++ [Some v])) (run_new (rsi_new len) rsi_step c (h ++ [Some w])).
  Proof.
    intros L L' W H. rewrite (makes_run _ _ _ _ c _ (rsi_makes len L) W), (makes_run _ _ _ _ c _ (rsi_makes len L) (warmed_last _ _ _ W)).
    apply by_last. apply rsi_last; assumption.
  Qed.

  Lemma In_present {A} (x : A) l : In (Some x) l -> In x (present l).
  Proof. induction l as [|[y|] l IH]; cbn; [tauto| |]; intros [E|I]; try discriminate; [left; congruence|right; auto|auto]. Qed.
  (** ** Stochastic *)
  Theorem C130_stochastic len (c : ctx f64) h v w hi lo : (1 <= len)%nat -> higher v w ->
    no_nan (present (map (fun y : option f64 * option f64 * option f64 => snd (fst y)) h)) -> no_nan (present (map snd h)) -> Bleb lo hi = true ->
    in_order (run_new (stoch_new len) stoch_step c (h ++ [(Some v, Some hi, Some lo)])) (run_new (stoch_new len) stoch_step c (h ++ [(Some w, Some hi, Some lo)])).
  Proof.
    intros L H NH NL B. rewrite !(makes_run _ _ _ _ c _ (stoch_makes len L) I). apply by_last. rewrite !stoch_out_snoc.
    destruct (len <=? _)%nat; [|exact I].
    assert (NH' : no_nan (present (lastn len (map (fun y : option f64 * option f64 * option f64 => snd (fst y)) h ++ [Some hi])))).
    { apply Forall_forall. intros y Hy. apply present_In in Hy.
      assert (HI : In (Some y) (map (fun y : option f64 * option f64 * option f64 => snd (fst y)) h ++ [Some hi])) by (eapply lastn_In; exact Hy).
      apply in_app_or in HI. destruct HI as [HI|[HI|[]]]; [|injection HI as <-; apply (not_nan_lr _ _ B)].
      unfold no_nan in NH. rewrite Forall_forall in NH. apply NH. apply In_present. exact HI. }
    assert (NL' : no_nan (present (lastn len (map snd h ++ [Some lo])))).
    { apply Forall_forall. intros y Hy. apply present_In in Hy.
      assert (HI : In (Some y) (map snd h ++ [Some lo])) by (eapply lastn_In; exact Hy).
      apply in_app_or in HI. destruct HI as [HI|[HI|[]]]; [|injection HI as <-; apply (not_nan_lr _ _ B)].
      unfold no_nan in NL. rewrite Forall_forall in NL. apply NL. apply In_present. exact HI. }
    pose proof (best_max _ NH') as XH. pose proof (best_min _ NL') as XL.
    destruct (best (fun v m => m <? v)%num _) as [u|]; [|exact I]. destruct (best (fun v m => v <? m)%num _) as [d|]; [|exact I].
    destruct XH as [IU XU]. destruct XL as [ID XD]. rewrite Forall_forall in XU, XD.
    assert (HU : Bleb hi u = true). { apply XU. destruct len as [|n]; [lia|]. rewrite lastn_S_snoc, PExact.present_app'. apply in_or_app. right. left. reflexivity. }
    assert (HD : Bleb d lo = true). { apply XD. destruct len as [|n]; [lia|]. rewrite lastn_S_snoc, PExact.present_app'. apply in_or_app. right. left. reflexivity. }
    destruct (fsub u d ==? fZ 0)%num eqn:ZD; [apply not_greater_refl|].
    assert (Bd : Bleb d u = true) by (apply (le_trans64 log10) with hi; [apply (le_trans64 log10) with lo; assumption|exact HU]).
    assert (DN : pz (Bminus mode_NE u d)). { destruct (le_sub_nz d u Bd) as [DN|DN]; [exact DN|]. change (Beqb (Bminus mode_NE u d) (f64_ofZ 0) = false) in ZD. rewrite DN in ZD. discriminate. }
    unfold stoch_val. cbn [not_greater]. apply div_mono; [exact DN|]. apply mult_mono; [right; reflexivity|]. apply minus_above; [apply higher_above; exact H|apply not_above_refl].
  Qed.


  (** ** Williams %R over a source: the same highs and lows. *)
  Lemma fst_combine {A B} (l : list A) (k : list B) : length l = length k -> map fst (combine l k) = l.
  Proof. revert k. induction l; intros [|y k] E; cbn in *; try lia; f_equal; auto. Qed.
  Lemma snd_combine {A B} (l : list A) (k : list B) : length l = length k -> map snd (combine l k) = k.
  Proof. revert k. induction l; intros [|y k] E; cbn in *; try lia; f_equal; auto. Qed.
  Theorem C130_williams len (c c' : ctx f64) src src' ss v w bs bs' b b' hi lo : (1 <= len)%nat -> higher v w ->
    length bs = length ss -> feeds c src (ss ++ [Some v]) -> fresh_over c (bs ++ [b]) -> feeds c' src' (ss ++ [Some w]) -> fresh_over c' (bs' ++ [b']) ->
    map b_high bs = map b_high bs' -> map b_low bs = map b_low bs' -> no_nan (present (map b_high bs)) -> no_nan (present (map b_low bs)) ->
    b_high b = Some hi -> b_high b' = Some hi -> b_low b = Some lo -> b_low b' = Some lo -> Bleb lo hi = true ->
    in_order (run_new (wpr_new src len) wpr_step c (ticks (length bs + 1))) (run_new (wpr_new src' len) wpr_step c' (ticks (length bs' + 1))).
  Proof.
    intros L H LN FE FO FE' FO' EH EL NH NL Hb Hb' Lb Lb' B.
    assert (LN' : length bs' = length ss) by (rewrite <- LN; apply (f_equal (@length _)) in EH; rewrite !map_length in EH; congruence).
    assert (W1 : run_new (wpr_new src len) wpr_step c (ticks (length bs + 1)) = Ok (each_prefix (wpr_out len) (combine ss bs ++ [(Some v, b)]))).
    { replace (length bs + 1)%nat with (length (combine ss bs ++ [(Some v, b)])) by (rewrite app_length, combine_length; cbn; lia). apply wpr_run; [exact L|rewrite map_app, fst_combine by congruence; exact FE|rewrite map_app, snd_combine by congruence; exact FO]. }
    assert (W2 : run_new (wpr_new src' len) wpr_step c' (ticks (length bs' + 1)) = Ok (each_prefix (wpr_out len) (combine ss bs' ++ [(Some w, b')]))).
    { replace (length bs' + 1)%nat with (length (combine ss bs' ++ [(Some w, b')])) by (rewrite app_length, combine_length; cbn; lia). apply wpr_run; [exact L|rewrite map_app, fst_combine by congruence; exact FE'|rewrite map_app, snd_combine by congruence; exact FO']. }
    rewrite W1, W2. clear W1 W2. apply by_last. unfold wpr_out. rewrite !cur_snoc, !map_app. cbn [map fst snd]. rewrite Hb, Hb', Lb, Lb'.
    rewrite <- !(map_map snd b_high), <- !(map_map snd b_low), !snd_combine by congruence. rewrite <- EH, <- EL.
    destruct (highest_out len 0 _) as [u|] eqn:U; [|exact I]. destruct (lowest_out len 0 _) as [d|] eqn:D; [|exact I].
    apply (top_of log10) in U; [|exact L|]. 2:{ rewrite present_last. apply Forall_app. split; [exact NH|]. constructor; [apply (not_nan_lr _ _ B)|constructor]. }
    apply (bottom_of log10) in D; [|exact L|]. 2:{ rewrite present_last. apply Forall_app. split; [exact NL|]. constructor; [apply (not_nan_lr _ _ B)|constructor]. }
    assert (Bd : Bleb d u = true) by (apply (le_trans64 log10) with hi; [apply (le_trans64 log10) with lo; assumption|exact U]).
    unfold wpr_value, ps_diff, ps_div, times100. destruct (fsub u d ==? fZ 0)%num eqn:ZD; [exact I|].
    assert (DN : pz (Bminus mode_NE u d)). { destruct (le_sub_nz d u Bd) as [DN|DN]; [exact DN|]. change (Beqb (Bminus mode_NE u d) (f64_ofZ 0) = false) in ZD. rewrite DN in ZD. discriminate. }
    cbn [option_map not_greater]. apply mult_mono_r; [right; reflexivity|]. apply div_mono; [exact DN|]. apply minus_above; [apply higher_above; exact H|apply not_above_refl].
  Qed.

  Lemma real_range (hi lo : f64) : Bleb lo hi = true -> Beqb hi lo = false -> unsigned (Bminus mode_NE hi lo).
  Proof.
    intros B NE. destruct (is_finite hi) eqn:Fh, (is_finite lo) eqn:Fl.
    2-4: destruct hi as [?|[|]| |[|] ? ? ?], lo as [?|[|]| |[|] ? ? ?]; try discriminate; first [right; reflexivity|left; reflexivity].
    rewrite Bleb_correct in B by assumption. rewrite Beqb_correct in NE by assumption.
    destruct (Rle_bool_spec (B2R lo) (B2R hi)) as [B'|]; [|discriminate]. destruct (Req_bool_spec (B2R hi) (B2R lo)) as [|NE']; [discriminate|].
    destruct (sub_sign hi lo Fh Fl) as [[_ P] _]. specialize (P ltac:(lra)). right.
    destruct (minus_rounded hi lo Fh Fl) as [(F & V & _)|[[-> _]|[-> K]]]; [|reflexivity|].
    - rewrite <- V in P. destruct (Bsign (Bminus mode_NE hi lo)) eqn:Q; [|reflexivity]. apply sign_true in Q; [lra|exact F].
    - pose proof (bpow_gt_0 radix2 1024). change (round radix2 fexp64 (round_mode mode_NE) (B2R hi - B2R lo)) with (rnd (B2R hi - B2R lo)) in K. lra.
  Qed.
  (** ** Balance of power: a higher close of the same bar. *)
  Theorem C130_balance_of_power (c c' : ctx f64) bs bs' b b' op hi lo v w : higher v w -> length bs = length bs' ->
    fresh_over c (bs ++ [b]) -> fresh_over c' (bs' ++ [b']) ->
    b_open b = op -> b_open b' = op -> b_high b = Some hi -> b_high b' = Some hi -> b_low b = Some lo -> b_low b' = Some lo -> Bleb lo hi = true ->
    b_close b = Some v -> b_close b' = Some w ->
    in_order (run bop_step c tt (ticks (length bs + 1))) (run bop_step c' tt (ticks (length bs' + 1))).
  Proof.
    intros H LN FO FO' Ho Ho' Hb Hb' Lb Lb' B Cb Cb'.
    replace (length bs + 1)%nat with (length (bs ++ [b])) by (rewrite app_length; reflexivity). replace (length bs' + 1)%nat with (length (bs' ++ [b'])) by (rewrite app_length; reflexivity).
    rewrite (bop_run c _ FO), (bop_run c' _ FO'). apply by_last. unfold bop_out. rewrite !cur_snoc, Ho, Ho', Hb, Hb', Lb, Lb', Cb, Cb'. unfold bop_value.
    destruct op as [op|]; [|exact I]. destruct (hi ==? lo)%num eqn:ZD; [exact I|].
    cbn [not_greater]. apply div_mono; [exact (real_range hi lo B ZD)|]. apply minus_above; [apply higher_above; exact H|apply not_above_refl].
  Qed.

  (** ** Percent rank *)
  Lemma count_up (v w : f64) l : Bleb v w = true -> (length (filter (fun x => match x with Some x => Bleb x v | None => false end) l) <= length (filter (fun x => match x with Some x => Bleb x w | None => false end) l) <= length l)%nat.
  Proof.
    intros B. induction l as [|[x|] l IH]; cbn; [lia| |lia]. destruct (Bleb x v) eqn:X; [rewrite (le_trans64 log10 x v w X B); cbn; lia|].
    destruct (Bleb x w); cbn; lia.
  Qed.
  Theorem C130_percent_rank len (c : ctx f64) h v w : (1 <= len)%nat -> (Z.of_nat len <= 2 ^ 53)%Z -> higher v w ->
    in_order (run_new (prank_new len) prank_step c (h ++ [Some v])) (run_new (prank_new len) prank_step c (h ++ [Some w])).
  Proof.
    intros L L' H. rewrite !(makes_run _ _ _ _ c _ (prank_makes len L) I). apply by_last. unfold prank_out. rewrite !newest_snoc, !removelast_last, !app_length. cbn [join length].
    destruct (len <? _)%nat; [|exact I]. cbn [not_greater]. unfold prank_val.
    assert (LN : unsigned (fnat len)) by (apply (pz_fZ log10); lia).
    apply mult_mono_r; [right; reflexivity|]. apply div_mono; [exact LN|].
    pose proof (count_up v w (lastn len h) (proj2 (proj2 H))) as K. assert (LL := length_lastn len h).
    change (not_above (f64_ofZ (Z.of_nat (length (filter (fun x => match x with Some x => Bleb x v | None => false end) (lastn len h))))) (f64_ofZ (Z.of_nat (length (filter (fun x => match x with Some x => Bleb x w | None => false end) (lastn len h)))))).
    generalize dependent (length (filter (fun x => match x with Some x => Bleb x v | None => false end) (lastn len h))). intros m K.
    generalize dependent (length (filter (fun x => match x with Some x => Bleb x w | None => false end) (lastn len h))). intros n K. assert (K2 : (m <= n <= len)%nat) by (refine (conj (proj1 K) _); apply Nat.le_trans with (1 := proj2 K); refine (Nat.le_trans _ _ _ (Nat.eq_le_incl _ _ LL) _); apply Nat.le_min_l). clear K LL.
    destruct (f64_ofZ_correct (Z.of_nat m) ltac:(lia)) as [E1 F1]. destruct (f64_ofZ_correct (Z.of_nat n) ltac:(lia)) as [E2 F2].
    apply not_above_cases. do 4 right. rewrite E1, E2. repeat split; try assumption. apply IZR_le. lia.
  Qed.

  (** ** Crossings: where the lower value crosses above, so does the higher;
      where the higher crosses below, so does the lower. *)
  Theorem C130_crossings (c : ctx f64) (pa pb : option f64) b t p v w : higher v w ->
    (snd_ok (crossover_step c (pa, pb) (Some v, b)) = Some true -> snd_ok (crossover_step c (pa, pb) (Some w, b)) = Some true) /\
    (snd_ok (crossunder_step c (pa, pb) (Some w, b)) = Some true -> snd_ok (crossunder_step c (pa, pb) (Some v, b)) = Some true) /\
    (snd_ok (crossover_t_step c (mkCrossT t p) (Some v)) = Some true -> snd_ok (crossover_t_step c (mkCrossT t p) (Some w)) = Some true) /\
    (snd_ok (crossunder_t_step c (mkCrossT t p) (Some w)) = Some true -> snd_ok (crossunder_t_step c (mkCrossT t p) (Some v)) = Some true).
  Proof.
    intros (_ & _ & B).
    assert (Up : forall a a' p' : f64, cross_over v a p' a' = true -> cross_over w a p' a' = true).
    { intros a a' p' K. unfold cross_over, fgtb in *. apply andb_prop in K. destruct K as [K ->]. rewrite andb_true_r. exact (@Laws.lt_le_trans f64 N130 O130 _ _ _ K B). }
    assert (Dn : forall a a' p' : f64, cross_under w a p' a' = true -> cross_under v a p' a' = true).
    { intros a a' p' K. unfold cross_under in *. apply andb_prop in K. destruct K as [K ->]. rewrite andb_true_r. exact (@Laws.le_lt_trans f64 N130 O130 _ _ _ B K). }
    split; [|split; [|split]].
    - destruct pa as [pa|], pb as [pb|], b as [b|]; cbn; intros K; try discriminate. injection K as K. rewrite (Up _ _ _ K). reflexivity.
    - destruct pa as [pa|], pb as [pb|], b as [b|]; cbn; intros K; try discriminate. injection K as K. rewrite (Dn _ _ _ K). reflexivity.
    - destruct p as [p|]; cbn; intros K; try discriminate. injection K as K. rewrite (Up _ _ _ K). reflexivity.
    - destruct p as [p|]; cbn; intros K; try discriminate. injection K as K. rewrite (Dn _ _ _ K). reflexivity.
  Qed.
End Respond.

(** ** Examples, computed: the hypotheses are met, and the order is strict. *)
Definition strictly (r r' : res (list (option f64))) : bool :=
  match r, r' with
  | Ok os, Ok ps => match last os None, last ps None with Some a, Some b => Bltb a b | _, _ => false end
  | _, _ => false
  end.
Definition before : list (option f64) := [None; Some (q 10); Some (q 12); Some (q 11)].
Definition closing (x : Z) : list (bar f64) := map qbar [(10, 12, 9, 11, 100); (11, 14, 10, x, 120)]%Z.
Theorem C130_ex_bars : higher (q 12) (q 13) /\
  (exists c c', ctx_over (closing 12) = Ok c /\ ctx_over (closing 13) = Ok c' /\ fresh_over c (closing 12) /\ fresh_over c' (closing 13) /\
     feeds c (src_box SClose) [Some (q 11); Some (q 12)] /\ feeds c' (src_box SClose) [Some (q 11); Some (q 13)]) /\
  strictly (c <- ctx_over (closing 12) ;; run_new (wpr_new (src_box SClose) 2) wpr_step c (ticks 2)) (c <- ctx_over (closing 13) ;; run_new (wpr_new (src_box SClose) 2) wpr_step c (ticks 2)) = true /\
  strictly (c <- ctx_over (closing 12) ;; run bop_step c tt (ticks 2)) (c <- ctx_over (closing 13) ;; run bop_step c tt (ticks 2)) = true.
Proof.
  split; [repeat split|]. split; [|split; vm_compute; reflexivity].
  eexists _, _. split; [reflexivity|]. split; [reflexivity|]. split; [split; [repeat split|reflexivity]|]. split; [split; [repeat split|reflexivity]|]. split; reflexivity.
Qed.
Theorem C130_ex :
  higher (q 9) (q 13) /\ warmed (before ++ [Some (q 9)]) /\ (forall o, In (Some o) before -> nonnegative o) /\
  strictly (run_new (rsi_new 2) rsi_step ctx6 (before ++ [Some (q 9)])) (run_new (rsi_new 2) rsi_step ctx6 (before ++ [Some (q 13)])) = true /\
  strictly (run_new (change_new 2) change_step ctx6 (before ++ [Some (q 9)])) (run_new (change_new 2) change_step ctx6 (before ++ [Some (q 13)])) = true /\
  strictly (run_new (roc_new 2) roc_step ctx6 (before ++ [Some (q 9)])) (run_new (roc_new 2) roc_step ctx6 (before ++ [Some (q 13)])) = true /\
  strictly (run_new (prank_new 2) prank_step ctx6 (before ++ [Some (q 9)])) (run_new (prank_new 2) prank_step ctx6 (before ++ [Some (q 13)])) = true /\
  strictly (run_new (stoch_new 2) stoch_step ctx6 [(Some (q 9), Some (q 14), Some (q 8)); (Some (q 9), Some (q 14), Some (q 9))])
           (run_new (stoch_new 2) stoch_step ctx6 [(Some (q 9), Some (q 14), Some (q 8)); (Some (q 13), Some (q 14), Some (q 9))]) = true.
Proof.
  split; [repeat split|]. split; [exists 1%nat, [q 10; q 12; q 11; q 9]; reflexivity|].
  split; [intros o I; repeat (destruct I as [I|I]; [try discriminate; injection I as <-; right; reflexivity|]); contradiction|].
  repeat split; vm_compute; reflexivity.
Qed.
