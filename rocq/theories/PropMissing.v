(** * PropMissing: C120, which components survive missing values. *)
From Verif Require Import PContent3 PExact3 SpecCatalogue Inst PropContent1 PropContent4 PropContent5 PropTa1 PropSafe PropPipe.

(** Some [n] consecutive values are there and a later one is missing. *)
Definition gap_after {A} (n : nat) (xs : list (option A)) : Prop :=
  exists i j, i + n <= j /\ (forall k, k < n -> exists v, nth_error xs (i + k) = Some (Some v)) /\
              nth_error xs j = Some None.

Section Gap.
  Context {A : Type}.
  Implicit Types xs : list (option A).
  Lemma nth_skip {B} n (l : list B) k : nth_error (skipn n l) k = nth_error l (n + k).
  Proof. revert l; induction n as [|n IH]; intros [|a l]; cbn; try reflexivity; [destruct k; reflexivity | apply IH]. Qed.
  Lemma all_some_iff xs : (exists w, all_some xs = Some w) <-> (forall k, k < length xs -> exists v, nth_error xs k = Some (Some v)).
  Proof.
    induction xs as [|x t IH]; cbn [all_some length].
    - split; [intros _ k Hk; lia | intros _; exists []; reflexivity].
    - split.
      + intros (w & E) k Hk. destruct x as [x|]; [|discriminate]. destruct (all_some t) as [w'|] eqn:E'; [|discriminate].
        destruct k as [|k]; [exists x; reflexivity|]. cbn. apply IH; [exists w'; reflexivity | lia].
      + intros H. destruct (H 0 ltac:(lia)) as (v & E). cbn in E. injection E as ->.
        destruct (proj2 IH) as (w & ->). { intros k Hk. apply (H (S k)). lia. }
        eexists. reflexivity.
  Qed.
  Lemma window_iff n xs i : 1 <= n -> i < length xs ->
    (exists w, window n (firstn (S i) xs) = Some w) <-> n <= S i /\ (forall k, k < n -> exists v, nth_error xs (S i - n + k) = Some (Some v)).
  Proof.
    intros L Hi. unfold window. rewrite firstn_length, Nat.min_l by lia.
    destruct (Nat.leb_spec n (S i)) as [Q|Q]; [|split; [intros (w & E); discriminate | lia]].
    rewrite all_some_iff, length_lastn, firstn_length, (Nat.min_l (S i)), Nat.min_l by lia.
    assert (N : forall k, k < n -> nth_error (lastn n (firstn (S i) xs)) k = nth_error xs (S i - n + k)).
    { intros k Hk. unfold lastn. rewrite firstn_length, Nat.min_l by lia. rewrite nth_skip. apply nth_error_firstn_lt. lia. }
    split; [intros H; split; [exact Q|]; intros k Hk; rewrite <- N by exact Hk; apply H, Hk |
            intros [_ H] k Hk; rewrite N by exact Hk; apply H, Hk].
  Qed.
  Lemma gap_window n xs : 1 <= n ->
    (gap_after n xs <-> exists i j w, i < j /\ window n (firstn (S i) xs) = Some w /\ nth_error xs j = Some None).
  Proof.
    intros L. split.
    - intros (i & j & Hij & H & Hj). assert (LJ : j < length xs) by (apply nth_error_Some; rewrite Hj; discriminate).
      destruct (proj2 (window_iff n xs (i + n - 1) L ltac:(lia))) as (w & E).
      { split; [lia|]. intros k Hk. replace (S (i + n - 1) - n + k) with (i + k) by lia. apply H, Hk. }
      exists (i + n - 1), j, w. split; [lia|]. split; assumption.
    - intros (i & j & w & Hij & E & Hj). assert (LJ : j < length xs) by (apply nth_error_Some; rewrite Hj; discriminate).
      destruct (proj1 (window_iff n xs i L ltac:(lia)) (ex_intro _ w E)) as [Q H].
      exists (S i - n), j. split; [lia|]. split; assumption.
  Qed.
  Lemma gap_fewer n m xs : n <= m -> gap_after m xs -> gap_after n xs.
  Proof. intros L (i & j & Hij & H & Hj). exists i, j. split; [lia|]. split; [|exact Hj]. intros k Hk. apply H. lia. Qed.
End Gap.

(** ** Components fed with values *)
Section Values.
  Context {F : Type} {NF : Num F}.

  (** Components fed with values, one per bar, any of which may be missing. *)
  Inductive sturdy : forall {S I O : Type}, res S -> (ctx F -> S -> I -> res (S * O)) -> Prop :=
  | U_fixnan : sturdy (Ok fixnan_new) fixnan_step
  | U_validator n : sturdy (wv_new n) wv_step
  | U_sma n : sturdy (sma_new n) sma_step
  | U_sum n : sturdy (sum_new n) sum_step
  | U_swma : sturdy swma_new swma_step
  | U_wma n : sturdy (wma_new n) wma_step
  | U_change n : sturdy (change_new n) change_step
  | U_roc n : sturdy (roc_new n) roc_step
  | U_dev n : sturdy (dev_new n) dev_step
  | U_stdev n b : sturdy (stdev_new n b) stdev_step
  | U_highest n : sturdy (highest_new n) highest_step
  | U_lowest n : sturdy (lowest_new n) lowest_step
  | U_prank n : sturdy (prank_new n) prank_step
  | U_stoch n : sturdy (stoch_new n) stoch_step
  | U_cross : sturdy (Ok cross_new) cross_step
  | U_crossover : sturdy (Ok cross_new) crossover_step
  | U_crossunder : sturdy (Ok cross_new) crossunder_step
  | U_cross_t t : sturdy (Ok (crosst_new t)) cross_t_step
  | U_crossover_t t : sturdy (Ok (crosst_new t)) crossover_t_step
  | U_crossunder_t t : sturdy (Ok (crosst_new t)) crossunder_t_step
  | U_thresholds a b : sturdy (Ok (thr_new a b)) thr_step.

  Theorem C120_values {S I O} (new : res S) (step : ctx F -> S -> I -> res (S * O)) s (c : ctx F) xs :
    sturdy new step -> new = Ok s -> exists os, run step c s xs = Ok os /\ length os = length xs.
  Proof.
    intros K E.
    assert (X : exists os, run step c s xs = Ok os).
    2:{ destruct X as (os & X). exists os. split; [exact X | exact (run_length _ _ _ _ _ X)]. }
    assert (G : forall f : nat -> list I -> O, makes new step anyh f -> exists os, run step c s xs = Ok os).
    { intros f M. pose proof (makes_run new step anyh f c xs M Logic.I) as Q. unfold run_new in Q. rewrite E in Q. cbn [rbind] in Q. eexists. exact Q. }
    destruct K as [|[|n]|[|n]|[|n]| |[|n]|[|n]|[|n]|[|n]|[|n] b|[|n]|[|n]|[|n]|[|n]| | | | | | |a b];
      try discriminate E.
    - eapply G, fixnan_makes.
    - pose proof (wv_run (Datatypes.S n) c xs ltac:(lia)) as R. unfold run_new in R. rewrite E in R. cbn [rbind] in R. eexists; exact R.
    - eapply G, sma_makes; lia.
    - eapply G, sum_makes; lia.
    - eapply G, swma_makes; lia.
    - eapply G, wma_makes; lia.
    - eapply G, change_makes; lia.
    - eapply G, roc_makes; lia.
    - eapply G, dev_makes; lia.
    - eapply G, stdev_makes; lia.
    - eapply G, highest_makes; lia.
    - eapply G, lowest_makes; lia.
    - eapply G, prank_makes; lia.
    - eapply G, stoch_makes; lia.
    - eapply G, cross_makes.
    - eapply G, crossover_makes.
    - eapply G, crossunder_makes.
    - eapply G, cross_t_makes.
    - eapply G, crossover_t_makes.
    - eapply G, crossunder_t_makes.
    - injection E as <-. eexists. apply thr_run.
  Qed.
  (** So putting one of them behind any other component adds no panic. *)
  Theorem C120_behind {S T I M O} (f : ctx F -> S -> I -> res (S * M)) (new : res T) (step : ctx F -> T -> M -> res (T * O)) s t (c : ctx F) xs :
    sturdy new step -> new = Ok t -> (run (pipe_step f step) c (s, t) xs = Panic <-> run f c s xs = Panic).
  Proof.
    intros K E. rewrite C100_pipeline. destruct (run f c s xs) as [ms|]; cbn [rbind]; [|tauto].
    destruct (C120_values new step t c ms K E) as (os & -> & _). split; discriminate.
  Qed.

  (** ** The recursive averages *)
  Definition recursive (k : ma_kind) : Prop := k = EMA \/ k = RMA.
  Lemma recursive_runs k n (c : ctx F) xs : recursive k -> 1 <= n -> exists alpha, run_new (ma_new k n) ma_step c xs = ema_runs n alpha xs.
  Proof.
    intros [-> | ->] L.
    - rewrite ma_run_ema. eexists. apply ema_with_alpha_run; exact L.
    - rewrite ma_run_rma, rma_new_eq by exact L. eexists. apply ema_with_alpha_run; exact L.
  Qed.
  Lemma ema_runs_gap n alpha (xs : list (option F)) : 2 <= n -> (ema_runs n alpha xs = Panic <-> gap_after n xs).
  Proof. intros L. rewrite gap_window by lia. apply ema_runs_panic; exact L. Qed.
  (** Ema and Rma (as averages of their own or chosen by kind) panic exactly
      when a value is missing after [n] consecutive ones were there. *)
  Theorem C120_recursive k n (c : ctx F) xs : recursive k -> 2 <= n ->
    (run_new (ma_new k n) ma_step c xs = Panic <-> gap_after n xs).
  Proof. intros K L. destruct (recursive_runs k n c xs K ltac:(lia)) as (alpha & ->). apply ema_runs_gap; exact L. Qed.
End Values.

(** ** The relative strength index *)
Section Rsi.
  Context {F : Type} {NF : Num F}.
  Local Open Scope num_scope.
  Local Notation hist := (list (option F)).

  (** the gains and losses after a previous value [p]. *)
  Fixpoint changes (g : option F -> option F -> option F) (p : option F) (xs : hist) : hist :=
    match xs with [] => [] | x :: t => g p x :: changes g x t end.
  Lemma rsi_two (xs : hist) : forall (c : ctx F) u d p a b,
    run rsi_step c (mkRsi u d p a b) xs =
    (us <- run rma_step c u (changes rsi_gain p xs) ;; ds <- run rma_step c d (changes rsi_loss p xs) ;; Ok (zip rsi_val us ds)).
  Proof.
    induction xs as [|x t IH]; intros c u d p a b; [reflexivity|]. cbn [changes]. rewrite !run_cons.
    unfold rsi_step at 1. cbn [rsi_prev rsi_up rsi_down rsi_data_up rsi_data_down].
    assert (E : match p, x with
      | Some p0, Some v => (Some (fmax (v - p0) (fZ 0)), Some (- fmin (v - p0) (fZ 0)))
      | _, _ => (None, None) end = (rsi_gain p x, rsi_loss p x)).
    { unfold rsi_gain, rsi_loss. destruct p, x; reflexivity. }
    rewrite E. clear E.
    destruct (rma_step c u (rsi_gain p x)) as [[u' up]|]; cbn [rbind]; [|reflexivity].
    destruct (rma_step c d (rsi_loss p x)) as [[d' dn]|]; cbn [rbind].
    2:{ destruct (run rma_step (ctx_advance c) u' (changes rsi_gain x t)); reflexivity. }
    assert (E : match up, dn with
      | Some up', Some down' => Ok (mkRsi u' d' x up dn, Some (fZ 100 - fZ 100 / (fZ 1 + up' / down')))
      | _, _ => Ok (mkRsi u' d' x a b, None) end = Ok (mkRsi u' d' x (match up, dn with Some _, Some _ => up | _, _ => a end) (match up, dn with Some _, Some _ => dn | _, _ => b end), rsi_val up dn)).
    { unfold rsi_val. destruct up, dn; reflexivity. }
    cbn zeta. rewrite E. cbn [rbind]. rewrite IH.
    destruct (run rma_step (ctx_advance c) u' (changes rsi_gain x t)) as [us|]; cbn [rbind]; [|reflexivity].
    destruct (run rma_step (ctx_advance c) d' (changes rsi_loss x t)) as [ds|]; cbn [rbind]; reflexivity.
  Qed.

  Definition there {A} (o : option A) : bool := match o with Some _ => true | None => false end.
  Lemma changes_nth g (Hg : forall p x, there (g p x) = there p && there x) xs : forall p k,
    option_map there (nth_error (changes g p xs) k) =
    match k with
    | 0%nat => option_map (fun x => there p && there x) (nth_error xs 0)
    | Datatypes.S k => match nth_error xs k, nth_error xs (Datatypes.S k) with Some a, Some b => Some (there a && there b) | _, _ => None end
    end.
  Proof.
    induction xs as [|x t IH]; intros p k; [destruct k as [|[|k]]; reflexivity|].
    destruct k as [|k]; cbn [changes nth_error]; [cbn; rewrite Hg; reflexivity|].
    rewrite IH. destruct k as [|k]; cbn [nth_error]; [|reflexivity].
    destruct t as [|y t']; reflexivity.
  Qed.
  Lemma there_some {A} (o : option (option A)) : option_map there o = Some true <-> exists v, o = Some (Some v).
  Proof. destruct o as [[v|]|]; cbn; split; intros H; try discriminate; try (destruct H as (? & H); discriminate); eauto. Qed.
  Lemma there_none {A} (o : option (option A)) : option_map there o = Some false <-> o = Some None.
  Proof. destruct o as [[v|]|]; cbn; split; intros H; try discriminate; congruence. Qed.
  Lemma there_nothing {A} (o : option (option A)) : option_map there o = None <-> o = None.
  Proof. destruct o as [[v|]|]; cbn; split; intros H; try discriminate; congruence. Qed.

  Lemma changes_gap g n (Hg : forall p x, there (g p x) = there p && there x) xs : (1 <= n)%nat ->
    (gap_after n (changes g None xs) <-> gap_after (Datatypes.S n) xs).
  Proof.
    intros L. split.
    - intros (i & j & Hij & H & Hj).
      assert (i <> 0)%nat.
      { intros ->. destruct (H 0%nat ltac:(lia)) as (v & E). assert (E' := proj2 (there_some _) (ex_intro _ v E)).
        change (0 + 0)%nat with 0%nat in E'. rewrite (changes_nth g Hg) in E'. destruct (nth_error xs 0); discriminate. }
      destruct i as [|i]; [congruence|].
      assert (P : forall k, (k <= n)%nat -> exists v, nth_error xs (i + k) = Some (Some v)).
      { intros k Hk. apply there_some. destruct (Nat.eq_dec k n) as [->|N].
        - destruct (H (n - 1)%nat ltac:(lia)) as (v & E). assert (E' := proj2 (there_some _) (ex_intro _ v E)).
          replace (Datatypes.S i + (n - 1))%nat with (Datatypes.S (i + (n - 1))) in E' by lia.
          rewrite (changes_nth g Hg) in E'. replace (Datatypes.S (i + (n - 1)))%nat with (i + n)%nat in E' by lia.
          destruct (nth_error xs (i + (n - 1))) as [[|]|], (nth_error xs (i + n)) as [[|]|]; cbn in *; congruence.
        - destruct (H k ltac:(lia)) as (v & E). assert (E' := proj2 (there_some _) (ex_intro _ v E)).
          change (Datatypes.S i + k)%nat with (Datatypes.S (i + k)) in E'.
          rewrite (changes_nth g Hg) in E'.
          destruct (nth_error xs (i + k)) as [[|]|], (nth_error xs (Datatypes.S (i + k))) as [[|]|]; cbn in *; congruence. }
      apply there_none in Hj. destruct j as [|j]; [lia|]. rewrite (changes_nth g Hg) in Hj.
      destruct (nth_error xs j) as [a|] eqn:Ea; [|discriminate]. destruct (nth_error xs (Datatypes.S j)) as [b|] eqn:Eb; [|discriminate].
      destruct b as [b|].
      + destruct a as [a|]; [discriminate|].
        assert (i + n < j)%nat.
        { assert (j <> i + n)%nat by (intros ->; destruct (P n (le_n n)) as (v & E); congruence). lia. }
        exists i, j. split; [lia|]. split; [|exact Ea]. intros k Hk. apply P. lia.
      + exists i, (Datatypes.S j). split; [lia|]. split; [|exact Eb]. intros k Hk. apply P. lia.
    - intros (i & j & Hij & H & Hj). exists (Datatypes.S i), j. split; [lia|]. split.
      + intros k Hk. apply there_some. change (Datatypes.S i + k)%nat with (Datatypes.S (i + k)). rewrite (changes_nth g Hg).
        destruct (H k ltac:(lia)) as (a & ->). destruct (H (Datatypes.S k) ltac:(lia)) as (b & E).
        replace (i + Datatypes.S k)%nat with (Datatypes.S (i + k)) in E by lia. rewrite E. reflexivity.
      + apply there_none. destruct j as [|j]; [lia|]. rewrite (changes_nth g Hg), Hj.
        destruct (nth_error xs j) as [a|] eqn:Ea; [destruct a; reflexivity|].
        apply nth_error_None in Ea. assert (Datatypes.S j < length xs)%nat by (apply nth_error_Some; rewrite Hj; discriminate). lia.
  Qed.

  (** The relative strength index panics exactly when a value is missing after
      [n + 1] consecutive ones were there. *)
  Theorem C120_rsi n (c : ctx F) xs : (2 <= n)%nat ->
    (run_new (rsi_new n) rsi_step c xs = Panic <-> gap_after (Datatypes.S n) xs).
  Proof.
    intros L. assert (G1 : forall p x, there (rsi_gain p x) = there p && there x) by (intros [|] [|]; reflexivity).
    assert (G2 : forall p x, there (rsi_loss p x) = there p && there x) by (intros [|] [|]; reflexivity).
    assert (R : run_new (rsi_new n) rsi_step c xs =
      (us <- run_new (rma_new n) rma_step c (changes rsi_gain None xs) ;; ds <- run_new (rma_new n) rma_step c (changes rsi_loss None xs) ;; Ok (zip rsi_val us ds))).
    { unfold run_new, rsi_new, assertb. destruct (Nat.leb_spec 2 n); [|lia]. cbn [rbind]. destruct (rma_new n) as [m|]; cbn [rbind]; [|reflexivity]. apply rsi_two. }
    rewrite R. clear R.
    pose proof (C12_rma_panics_iff n c (changes rsi_gain None xs) L) as P1. rewrite <- gap_window, (changes_gap _ n G1) in P1 by lia.
    pose proof (C12_rma_panics_iff n c (changes rsi_loss None xs) L) as P2. rewrite <- gap_window, (changes_gap _ n G2) in P2 by lia.
    destruct (run_new (rma_new n) rma_step c (changes rsi_gain None xs)) as [us|]; cbn [rbind]; [|tauto].
    destruct (run_new (rma_new n) rma_step c (changes rsi_loss None xs)) as [ds|]; cbn [rbind]; [|tauto].
    split; [discriminate|]. intros Q. apply P1 in Q. discriminate.
  Qed.

  (** ** Filling gaps *)
  Lemma filled_warmed (xs : hist) : warmed (each_prefix last_present xs).
  Proof.
    apply warmed_each_prefix. intros h x _ _ Hd. unfold last_present in *. rewrite PCommon.present_app.
    destruct x as [x|]; cbn [present].
    - rewrite newest_snoc. discriminate.
    - rewrite app_nil_r. exact Hd.
  Qed.
  (** The rest of the averages and the relative strength index, behind the
      component that repeats the last value. *)
  Inductive fillable : forall {S : Type}, res S -> (ctx F -> S -> option F -> res (S * option F)) -> Prop :=
  | L_ema n : fillable (ema_new n) ema_step
  | L_ema_alpha n a : fillable (ema_with_alpha n a) ema_step
  | L_rma n : fillable (rma_new n) rma_step
  | L_ma k n : fillable (ma_new k n) ma_step
  | L_rsi n : fillable (rsi_new n) rsi_step.
  Theorem C120_filled {S} (new : res S) (step : ctx F -> S -> option F -> res (S * option F)) s (c : ctx F) xs :
    fillable new step -> new = Ok s ->
    exists os, run (pipe_step fixnan_step step) c (fixnan_new, s) xs = Ok os /\ length os = length xs.
  Proof.
    intros K E.
    assert (X : exists os, run (pipe_step fixnan_step step) c (fixnan_new, s) xs = Ok os).
    2:{ destruct X as (os & X). exists os. split; [exact X | exact (run_length _ _ _ _ _ X)]. }
    rewrite C100_pipeline, fixnan_run. cbn [rbind]. pose proof (filled_warmed xs) as W.
    revert W. generalize (each_prefix last_present xs) as ys. intros ys W.
    assert (G : forall f : nat -> hist -> option F, makes new step warmed f -> exists os, run step c s ys = Ok os).
    { intros f M. pose proof (makes_run new step warmed f c ys M W) as Q. unfold run_new in Q. rewrite E in Q. cbn [rbind] in Q. eexists. exact Q. }
    destruct K as [[|n]|[|n] a|[|n]|k [|n]|[|[|n]]]; try discriminate E.
    - eapply G, ema_makes; lia.
    - eapply G, ema_alpha_makes; lia.
    - eapply G, rma_makes; lia.
    - destruct k; try discriminate E. eapply G. apply (ma_makes SWMA 1). lia.
    - eapply G, ma_makes; lia.
    - eapply G, rsi_makes; lia.
  Qed.
End Rsi.

(** ** Oscillators of two averages *)
Section Oscillators.
  Context {F : Type} {NF : Num F}.
  Local Notation hist := (list (option F)).

  Lemma warmed_cons_none (h : hist) : warmed h -> warmed (None :: h).
  Proof. intros (k & vs & ->). exists (Datatypes.S k), vs. reflexivity. Qed.
  Lemma ema_rec_full alpha (zs : list (option F * option F)) : forall p os, ema_rec alpha (Some p) zs = Ok os -> exists vs, os = map Some vs.
  Proof.
    induction zs as [|[x m] t IH]; intros p os E; cbn [ema_rec] in E.
    - injection E as <-. exists []. reflexivity.
    - destruct x as [v|]; cbn [unwrap rbind] in E; [|discriminate]. cbn zeta in E.
      match type of E with (os <- ?r ;; _) = _ => destruct r as [os'|] eqn:E'; cbn [rbind] in E; [|discriminate] end.
      injection E as <-. destruct (IH _ _ E') as (vs & ->). eexists (_ :: vs). reflexivity.
  Qed.
  Lemma ema_rec_warmed alpha (zs : list (option F * option F)) : forall os, ema_rec alpha None zs = Ok os -> warmed os.
  Proof.
    induction zs as [|[x m] t IH]; intros os E; cbn [ema_rec] in E.
    - injection E as <-. apply warmed_nil.
    - destruct (ema_rec alpha m t) as [os'|] eqn:E'; cbn [rbind] in E; [|discriminate]. injection E as <-.
      destruct m as [m|]; [|apply warmed_cons_none, IH, E'].
      destruct (ema_rec_full _ _ _ _ E') as (vs & ->). exact (warmed_map_Some (m :: vs)).
  Qed.
  Lemma recursive_warmed n alpha (xs os : hist) : 2 <= n -> ema_runs n alpha xs = Ok os -> warmed os.
  Proof. unfold ema_runs. destruct (Nat.eqb_spec n 1) as [->|]; [lia|]. intros _. apply ema_rec_warmed. Qed.
  Lemma warmed_minus (xs : hist) : forall ys, length xs = length ys -> warmed xs -> warmed ys -> warmed (zip minus xs ys).
  Proof.
    induction xs as [|x t IH]; intros [|y u] L W V; try discriminate; [apply warmed_nil|]. injection L as L.
    destruct W as (a & vs & W), V as (b & ws & V).
    assert (D : forall (r s : hist) k us, r = warm k us -> warmed r) by (intros r s k us ->; exists k, us; reflexivity).
    destruct a as [|a].
    - destruct b as [|b].
      + (* both complete *)
        rewrite W, V. cbn [warm repeat app]. unfold warm. cbn [repeat app].
        assert (Z : forall vs ws : list F, exists us, zip minus (map Some vs) (map Some ws) = map Some us).
        { clear. induction vs as [|v vs IH]; intros [|w ws]; try (exists []; reflexivity).
          destruct (IH ws) as (us & E). exists ((v - w)%num :: us). unfold zip in *. cbn [map combine fst snd]. f_equal. exact E. }
        destruct (Z vs ws) as (us & ->). apply warmed_map_Some.
      + assert (y = None /\ u = warm b ws) as [-> ->] by (unfold warm in V; cbn in V; injection V as -> ->; split; reflexivity).
        assert (W' : warmed t). { destruct vs as [|v vs]; [discriminate|]. unfold warm in W; cbn in W. injection W as _ ->. apply warmed_map_Some. }
        unfold zip. cbn [map combine fst snd]. replace (minus x None) with (@None F) by (destruct x; reflexivity).
        apply warmed_cons_none. apply IH; [exact L | exact W' | exists b, ws; reflexivity].
    - assert (x = None /\ t = warm a vs) as [-> ->] by (unfold warm in W; cbn in W; injection W as -> ->; split; reflexivity).
      assert (V' : warmed u).
      { destruct b as [|b]; [destruct ws as [|w ws]; [discriminate|]; unfold warm in V; cbn in V; injection V as _ ->; apply warmed_map_Some|].
        unfold warm in V; cbn in V. injection V as _ ->. exists b, ws; reflexivity. }
      unfold zip. cbn [map combine fst snd]. cbn [minus]. apply warmed_cons_none. apply IH; [exact L | exists a, vs; reflexivity | exact V'].
  Qed.

  (** A raw price or the volume of a bar as the source. *)
  Definition is_raw (k : src_kind) : Prop := k = SOpen \/ k = SHigh \/ k = SLow \/ k = SClose \/ k = SVolume.
  Lemma raw_feeds k (c : ctx F) bs : is_raw k -> fresh_over c bs -> run ostep c (src_box k) (ticks (length bs)) = Ok (map (src_of k) bs).
  Proof.
    intros R H. assert (OK : Forall (src_ok k) bs) by (apply Forall_forall; intros b _; destruct R as [-> | [-> | [-> | [-> | ->]]]]; exact I).
    pose proof (src_feeds k c bs H OK) as FE. unfold feeds in FE. rewrite map_length in FE. exact FE.
  Qed.
  Lemma made k n (m : any_ma) (c : ctx F) xs : recursive k -> 2 <= n -> ma_new k n = Ok m ->
    (run ostep c m xs = Panic <-> gap_after n xs) /\ (forall os, run ostep c m xs = Ok os -> warmed os /\ length os = length xs).
  Proof.
    intros K L E. rewrite (ma_boxed k n c xs m E). split; [apply C120_recursive; assumption|]. intros os R. split.
    - destruct (recursive_runs k n c xs K ltac:(lia)) as (alpha & Q). rewrite Q in R. eapply recursive_warmed; eassumption.
    - unfold run_new in R. rewrite E in R. cbn [rbind] in R. exact (run_length _ _ _ _ _ R).
  Qed.

  Theorem C120_price_oscillator k m n m' n' (c : ctx F) bs : is_raw k -> recursive m -> recursive m' -> 2 <= n -> 2 <= n' -> fresh_over c bs ->
    (run_new (s <- ma_new m n ;; l <- ma_new m' n' ;; Ok (mkPo (src_box k) s l)) po_step c (ticks (length bs)) = Panic <->
     gap_after (Nat.min n n') (map (src_of k) bs)).
  Proof.
    intros R K K' L L' H. unfold run_new.
    destruct (ma_new m n) as [a|] eqn:A. 2:{ destruct K as [-> | ->]; destruct n; [lia|discriminate|lia|discriminate]. }
    destruct (ma_new m' n') as [b|] eqn:B. 2:{ destruct K' as [-> | ->]; destruct n'; [lia|discriminate|lia|discriminate]. }
    cbn [rbind]. rewrite C58_price, (raw_feeds k c bs R H). cbn [rbind].
    destruct (made m n a c (map (src_of k) bs) K L A) as [P _]. destruct (made m' n' b c (map (src_of k) bs) K' L' B) as [P' _].
    pose proof (gap_fewer (Nat.min n n') n (map (src_of k) bs) ltac:(lia)) as G. pose proof (gap_fewer (Nat.min n n') n' (map (src_of k) bs) ltac:(lia)) as G'.
    assert (GG : gap_after (Nat.min n n') (map (src_of k) bs) -> gap_after n (map (src_of k) bs) \/ gap_after n' (map (src_of k) bs)).
    { destruct (Nat.min_dec n n') as [-> | ->]; auto. }
    destruct (run ostep c a (map (src_of k) bs)) as [x|]; cbn [rbind]; [|tauto].
    destruct (run ostep c b (map (src_of k) bs)) as [y|]; cbn [rbind]; [|tauto].
    split; [discriminate|]. intros Q. destruct (GG Q) as [Q'|Q']; [apply P in Q' | apply P' in Q']; discriminate.
  Qed.
  Theorem C120_volume_oscillator m n m' n' (c : ctx F) bs : recursive m -> recursive m' -> 2 <= n -> 2 <= n' -> fresh_over c bs ->
    (run_new (s <- ma_new m n ;; l <- ma_new m' n' ;; Ok (mkVo s l)) vo_step c (ticks (length bs)) = Panic <->
     gap_after (Nat.min n n') (map b_volume bs)).
  Proof.
    intros K K' L L' H. unfold run_new.
    destruct (ma_new m n) as [a|] eqn:A. 2:{ destruct K as [-> | ->]; destruct n; [lia|discriminate|lia|discriminate]. }
    destruct (ma_new m' n') as [b|] eqn:B. 2:{ destruct K' as [-> | ->]; destruct n'; [lia|discriminate|lia|discriminate]. }
    cbn [rbind]. rewrite (C58_volume c bs a b H).
    destruct (made m n a c (map b_volume bs) K L A) as [P _]. destruct (made m' n' b c (map b_volume bs) K' L' B) as [P' _].
    pose proof (gap_fewer (Nat.min n n') n (map b_volume bs) ltac:(lia)) as G. pose proof (gap_fewer (Nat.min n n') n' (map b_volume bs) ltac:(lia)) as G'.
    assert (GG : gap_after (Nat.min n n') (map b_volume bs) -> gap_after n (map b_volume bs) \/ gap_after n' (map b_volume bs)).
    { destruct (Nat.min_dec n n') as [-> | ->]; auto. }
    destruct (run ostep c a (map b_volume bs)) as [x|]; cbn [rbind]; [|tauto].
    destruct (run ostep c b (map b_volume bs)) as [y|]; cbn [rbind]; [|tauto].
    split; [discriminate|]. intros Q. destruct (GG Q) as [Q'|Q']; [apply P in Q' | apply P' in Q']; discriminate.
  Qed.
  (** The signal average adds no panic: the line has no gap once it has started. *)
  Theorem C120_macd k m n m' n' g r (c : ctx F) bs : is_raw k -> recursive m -> recursive m' -> recursive g -> 2 <= n -> 2 <= n' -> 2 <= r -> fresh_over c bs ->
    (run_new (s <- ma_new m n ;; l <- ma_new m' n' ;; sg <- ma_new g r ;; Ok (mkMacd (src_box k) (src_box k) s l sg)) macd_step c (ticks (length bs)) = Panic <->
     gap_after (Nat.min n n') (map (src_of k) bs)).
  Proof.
    intros R K K' KG L L' LG H. unfold run_new.
    destruct (ma_new m n) as [a|] eqn:A. 2:{ destruct K as [-> | ->]; destruct n; [lia|discriminate|lia|discriminate]. }
    destruct (ma_new m' n') as [b|] eqn:B. 2:{ destruct K' as [-> | ->]; destruct n'; [lia|discriminate|lia|discriminate]. }
    destruct (ma_new g r) as [sg|] eqn:GM. 2:{ destruct KG as [-> | ->]; destruct r; [lia|discriminate|lia|discriminate]. }
    cbn [rbind]. rewrite C58_macd, (raw_feeds k c bs R H). cbn [rbind].
    destruct (made m n a c (map (src_of k) bs) K L A) as [P W]. destruct (made m' n' b c (map (src_of k) bs) K' L' B) as [P' W'].
    pose proof (gap_fewer (Nat.min n n') n (map (src_of k) bs) ltac:(lia)) as G. pose proof (gap_fewer (Nat.min n n') n' (map (src_of k) bs) ltac:(lia)) as G'.
    assert (GG : gap_after (Nat.min n n') (map (src_of k) bs) -> gap_after n (map (src_of k) bs) \/ gap_after n' (map (src_of k) bs)).
    { destruct (Nat.min_dec n n') as [-> | ->]; auto. }
    destruct (run ostep c a (map (src_of k) bs)) as [x|]; cbn [rbind]; [|tauto].
    destruct (run ostep c b (map (src_of k) bs)) as [y|]; cbn [rbind]; [|tauto].
    destruct (W x eq_refl) as [Wx Lx]. destruct (W' y eq_refl) as [Wy Ly].
    pose proof (warmed_minus x y ltac:(congruence) Wx Wy) as (q & us & Eq).
    pose proof (proj1 (made g r sg c (zip minus x y) KG LG GM)) as PG.
    destruct (run ostep c sg (zip minus x y)) as [z|]; cbn [rbind].
    - split; [discriminate|]. intros Q. destruct (GG Q) as [Q'|Q']; [apply P in Q' | apply P' in Q']; discriminate.
    - exfalso. destruct (proj1 PG eq_refl) as (i & j & Hij & Hi & Hj). rewrite Eq in Hi, Hj. unfold warm in Hi, Hj.
      destruct (Hi 0 ltac:(lia)) as (v & Hv). rewrite Nat.add_0_r in Hv.
      assert (q <= i).
      { destruct (Nat.le_gt_cases q i) as [Q|Q]; [exact Q|]. rewrite nth_error_app1 in Hv by (rewrite repeat_length; exact Q).
        apply nth_error_In, repeat_spec in Hv. discriminate. }
      rewrite nth_error_app2 in Hj by (rewrite repeat_length; lia). rewrite repeat_length in Hj.
      apply nth_error_In, in_map_iff in Hj. destruct Hj as (? & X & _). discriminate.
  Qed.
End Oscillators.

(** ** Indicators over bars *)
Section Bars.
  Context {F : Type} {NF : Num F}.

  (** What a source needs of a bar: a raw price or the volume nothing at all
      (a missing one is passed on), the averaged prices all they average. *)
  Definition has_source (k : src_kind) (b : bar F) : Prop :=
    match k with
    | SOHLC4 => b_open b <> None /\ b_high b <> None /\ b_low b <> None /\ b_close b <> None
    | SHLC3 => b_high b <> None /\ b_low b <> None /\ b_close b <> None
    | SHL2 => b_high b <> None /\ b_low b <> None
    | _ => True
    end.
  Definition anything (b : bar F) : Prop := True.
  Definition high_and_low (b : bar F) : Prop := b_high b <> None /\ b_low b <> None.
  Lemma has_source_ok k b : has_source k b <-> src_ok k b.
  Proof.
    destruct b as [o h l c v], k; cbn; try tauto.
    - destruct o, h, l, c; split; intros H; try discriminate; try (repeat split; discriminate);
        try (exfalso; apply H; reflexivity); destruct H as (? & ? & ? & ?); congruence.
    - destruct h, l, c; split; intros H; try discriminate; try (repeat split; discriminate);
        try (exfalso; apply H; reflexivity); destruct H as (? & ? & ?); congruence.
    - destruct h, l; split; intros H; try discriminate; try (repeat split; discriminate);
        try (exfalso; apply H; reflexivity); destruct H as (? & ?); congruence.
  Qed.

  (** Indicators and what each needs of every bar. *)
  Inductive needs : forall {S O : Type}, res S -> (ctx F -> S -> unit -> res (S * O)) -> (bar F -> Prop) -> Prop :=
  | N_source k : needs (Ok tt) (src_step k) (has_source k)
  | N_aroon n : (Z.of_nat n <= 2 ^ 31)%Z -> needs (aroon_new n) aroon_step anything
  | N_bop : needs (Ok tt) bop_step anything
  | N_bbpb k n x : needs (bb_new (src_box k) n x) bbpb_step (has_source k)
  | N_bbw k n x : needs (bb_new (src_box k) n x) bbw_step (has_source k)
  | N_cmf n : needs (cmf_new n) cmf_step anything
  | N_cmo k n : needs (cmo_new (src_box k) n) cmo_step (has_source k)
  | N_cci k n : needs (cci_new (src_box k) n) cci_step (has_source k)
  | N_cop k a b d : needs (cop_new (src_box k) a b d) cop_step (has_source k)
  | N_don n : needs (don_new n) don_step anything
  | N_rvgi n : needs (rvgi_new n) rvgi_step anything
  | N_uo a b d : needs (uo_new a b d) uo_step anything
  | N_wpr k n : needs (wpr_new (src_box k) n) wpr_step (has_source k)
  | N_tr na : needs (Ok na) tr_step high_and_low
  | N_atr n : needs (atr_new n) atr_step high_and_low
  | N_cks p q x : needs (cks_new p q x) cks_step high_and_low
  | N_chop n : needs (chop_new n) chop_step high_and_low
  | N_vortex n : needs (vortex_new n) vortex_step high_and_low.

  Lemma inner_ok {S T O Q} (step : ctx F -> S -> unit -> res (S * O)) (inner : ctx F -> T -> unit -> res (T * Q)) (proj : S -> T) :
    (forall c s s' o, step c s tt = Ok (s', o) -> exists q, inner c (proj s) tt = Ok (proj s', q)) ->
    forall n c s os, run step c s (ticks n) = Ok os -> exists qs, run inner c (proj s) (ticks n) = Ok qs.
  Proof.
    intros H. induction n as [|n IH]; intros c s os R; [exists []; reflexivity|].
    unfold ticks in *. cbn [repeat] in *. rewrite run_cons in R. rewrite run_cons.
    destruct (step c s tt) as [[s' o]|] eqn:E; cbn [rbind] in R; [|discriminate].
    destruct (H _ _ _ _ E) as (q & ->). cbn [rbind].
    destruct (run step (ctx_advance c) s' (repeat tt n)) as [os'|] eqn:E'; cbn [rbind] in R; [|discriminate].
    destruct (IH _ _ _ E') as (qs & ->). eexists. reflexivity.
  Qed.
  Lemma bad_bar (P : bar F -> Prop) (D : forall b, P b \/ ~ P b) bs : Forall P bs \/ exists h b t, bs = h ++ b :: t /\ ~ P b.
  Proof.
    induction bs as [|b t IH]; [left; constructor|]. destruct (D b) as [Hb|Hb].
    - destruct IH as [IH | (h & b' & u & -> & Hb')]; [left; constructor; assumption | right; exists (b :: h), b', u; split; [reflexivity | exact Hb']].
    - right. exists [], b, t. split; [reflexivity | exact Hb].
  Qed.
  Lemma panics_at {S O} (step : ctx F -> S -> unit -> res (S * O)) (inv : S -> Prop) s (c : ctx F) h (b : bar F) t :
    inv s -> (forall c s s' o, inv s -> step c s tt = Ok (s', o) -> inv s') ->
    (forall s, inv s -> step (ctx_at c (length h)) s tt = Panic) -> run step c s (ticks (length (h ++ b :: t))) = Panic.
  Proof.
    intros I0 IS IP. rewrite app_length. cbn [length].
    unfold run, ticks. rewrite repeat_app, run_st_app. cbn [repeat].
    destruct (run_st step c s (repeat tt (length h))) as [[s1 os]|] eqn:E; [|reflexivity]. cbn [rbind].
    assert (I1 : inv s1).
    { revert I0 E. clear IP. generalize (length h) as n. intros n. revert c s os. induction n as [|n IH]; intros c s os I0 E; cbn [repeat run_st] in E.
      - injection E as <- _. exact I0.
      - destruct (step c s tt) as [[s' o]|] eqn:E1; cbn [rbind] in E; [|discriminate].
        destruct (run_st step (ctx_advance c) s' (repeat tt n)) as [[s2 os2]|] eqn:E2; cbn [rbind] in E; [|discriminate].
        injection E as <- _. eapply IH; [|exact E2]. eapply IS; eassumption. }
    cbn [run_st]. rewrite repeat_length. rewrite (IP s1 I1). reflexivity.
  Qed.
  Lemma src_panics k (c : ctx F) bs : fresh_over c bs -> (exists b, In b bs /\ ~ has_source k b) -> run (src_step k) c tt (ticks (length bs)) = Panic.
  Proof.
    intros H (b & Hb & N). apply in_split in Hb. destruct Hb as (h & t & ->).
    apply panics_at with (inv := fun _ => True); [exact I | auto|]. intros [] _. unfold src_step.
    rewrite (proj2 (src_value_ok k c h b t H)); [reflexivity|]. intros Q. apply N, has_source_ok, Q.
  Qed.
  Lemma tr_panics na (c : ctx F) bs : fresh_over c bs -> (exists b, In b bs /\ ~ high_and_low b) -> run tr_step c na (ticks (length bs)) = Panic.
  Proof.
    intros H (b & Hb & N). apply in_split in Hb. destruct Hb as (h & t & ->).
    apply panics_at with (inv := fun _ => True); [exact I | auto|]. intros s _. unfold tr_step.
    rewrite (read_high _ _ _ _ H), (read_low _ _ _ _ H). cbn [rbind].
    unfold high_and_low in N. destruct (b_high b); [|reflexivity]. destruct (b_low b); [|reflexivity].
    exfalso. apply N. split; discriminate.
  Qed.
  Lemma needs_dec {S O} (new : res S) (step : ctx F -> S -> unit -> res (S * O)) need : needs new step need -> forall b, need b \/ ~ need b.
  Proof.
    assert (D : forall k b, has_source k b \/ ~ has_source k b).
    { intros k [o h l c v]. destruct k; cbn; try tauto; destruct o, h, l, c;
        first [left; repeat split; discriminate | right; intros (? & ? & ? & ?); congruence | right; intros (? & ? & ?); congruence | right; intros (? & ?); congruence]. }
    assert (D' : forall b, high_and_low b \/ ~ high_and_low b).
    { intros [o h l c v]. unfold high_and_low; cbn. destruct h, l; try (left; split; discriminate); right; intros [? ?]; congruence. }
    intros K b. destruct K; try apply D; try apply D'; left; exact I.
  Qed.

  Ltac bounds E :=
    repeat progress unfold aroon_new, highest_bars_new, lowest_bars_new, bb_new, cmf_new, cks_new, cmo_new, chop_new, cci_new, cop_new,
      don_new, rvgi_new, uo_new, vortex_new, wpr_new,
      atr_new, rma_new, sma_new, sum_new, stdev_new, dev_new, ema_new, ema_with_alpha, highest_new, lowest_new, roc_new,
      wma_new, wv_new, assertb in E; cbn [rbind] in E;
    repeat match type of E with
      | context [?m <=? ?n] => destruct (Nat.leb_spec m n); cbn [rbind] in E; [|first [discriminate E | lia]]
      | context [?m <? ?n] => destruct (Nat.ltb_spec m n); cbn [rbind] in E; [|first [discriminate E | lia]]
      end.
  Ltac fin := eexists; reflexivity.

  (** It runs through when every bar has what it needs, whatever else is missing... *)
  Lemma needs_enough {S O} (new : res S) (step : ctx F -> S -> unit -> res (S * O)) need s c bs :
    needs new step need -> new = Ok s -> fresh_over c bs -> Forall need bs -> exists os, run step c s (ticks (length bs)) = Ok os.
  Proof.
    intros K E H HN.
    assert (X : exists os, run_new new step c (ticks (length bs)) = Ok os).
    2:{ unfold run_new in X. rewrite E in X. exact X. }
    assert (SF : forall k, Forall (has_source k) bs -> feeds c (src_box k) (map (src_of k) bs)).
    { intros k Q. apply src_feeds; [exact H|]. eapply Forall_impl; [|exact Q]. intros b. apply has_source_ok. }
    assert (HL : Forall high_and_low bs -> Forall has_hl bs) by exact (fun x => x).
    destruct K as [k|n Hn| |k n x|k n x|n|k n|k n|k a b d|n|n|a b d|k n|na|n|p q x|n|n].
    - unfold run_new; cbn [rbind]. rewrite (src_run k c bs H). fin. eapply Forall_impl; [|exact HN]. intros b. apply has_source_ok.
    - assert (L : 1 <= n) by (clear -E; bounds E; assumption). rewrite (aroon_run n c bs L Hn H). fin.
    - unfold run_new. cbn [rbind]. rewrite (bop_run c bs H). fin.
    - assert (L : 1 <= n) by (clear -E; bounds E; assumption).
      destruct (bb_run n x c _ _ L (SF k HN)) as [R _]. rewrite map_length in R. rewrite R. fin.
    - assert (L : 1 <= n) by (clear -E; bounds E; assumption).
      destruct (bb_run n x c _ _ L (SF k HN)) as [_ R]. rewrite map_length in R. rewrite R. fin.
    - assert (L : 1 <= n) by (clear -E; bounds E; assumption). rewrite (cmf_run n c bs L H). fin.
    - assert (L : 2 <= n) by (clear -E; bounds E; lia).
      pose proof (cmo_run n c _ _ L (SF k HN)) as R. rewrite map_length in R. rewrite R. fin.
    - assert (L : 1 <= n) by (clear -E; bounds E; assumption).
      pose proof (cci_run n c _ _ L (SF k HN)) as R. rewrite map_length in R. rewrite R. fin.
    - assert (L : 1 <= a /\ 1 <= b /\ 1 <= d) by (clear -E; bounds E; lia).
      pose proof (cop_run a b d c _ _ (proj1 L) (proj1 (proj2 L)) (proj2 (proj2 L)) (SF k HN)) as R. rewrite map_length in R. rewrite R. fin.
    - assert (L : 1 <= n) by (clear -E; bounds E; assumption). rewrite (don_run n c bs L H). fin.
    - assert (L : 1 <= n) by (clear -E; unfold rvgi_new in E; destruct (@swma_new F); [|discriminate]; cbn [rbind] in E; bounds E; assumption).
      rewrite (rvgi_run n c bs L H). fin.
    - assert (L : 1 <= a /\ 1 <= b /\ 1 <= d) by (clear -E; bounds E; lia). destruct L as (L1 & L2 & L3).
      rewrite (uo_run a b d c bs L1 L2 L3 H). fin.
    - assert (L : 1 <= n) by (clear -E; bounds E; assumption).
      pose proof (wpr_run n c (src_box k) (map (fun b => (src_of k b, b)) bs) L) as R.
      rewrite !map_map in R. cbn [fst snd] in R. rewrite map_id, map_length in R. rewrite (R (SF k HN) H). fin.
    - unfold run_new; cbn [rbind]. rewrite (tr_run na c bs H (HL HN)). fin.
    - assert (L : 1 <= n) by (clear -E; bounds E; assumption). destruct (atr_run n c bs L H (HL HN)) as (a & Ea & R).
      unfold run_new. rewrite Ea. cbn [rbind]. rewrite R. fin.
    - assert (L : 1 <= p /\ 1 <= q) by (clear -E; bounds E; split; assumption). rewrite (cks_run p q x c bs (proj1 L) (proj2 L) H (HL HN)). fin.
    - assert (L : 1 <= n) by (clear -E; bounds E; assumption). rewrite (chop_run n c bs L H (HL HN)). fin.
    - assert (L : 1 <= n) by (clear -E; bounds E; assumption). rewrite (vortex_run n c bs L H (HL HN)). fin.
  Qed.

  Lemma src_inner_panics {S O} (step : ctx F -> S -> unit -> res (S * O)) (proj : S -> any_src) k s c bs :
    (forall c s s' o, step c s tt = Ok (s', o) -> exists q, ostep c (proj s) tt = Ok (proj s', q)) ->
    proj s = src_box k -> fresh_over c bs -> (exists b, In b bs /\ ~ has_source k b) -> run step c s (ticks (length bs)) = Panic.
  Proof.
    intros ST P H N. destruct (run step c s (ticks (length bs))) as [os|] eqn:R; [|reflexivity].
    destruct (inner_ok step ostep proj ST _ _ _ _ R) as (qs & Q). rewrite P in Q. unfold src_box in Q. rewrite run_box, (src_panics k c bs H N) in Q. discriminate.
  Qed.
  Lemma tr_inner_panics {S O} (step : ctx F -> S -> unit -> res (S * O)) (proj : S -> bool) s c bs :
    (forall c s s' o, step c s tt = Ok (s', o) -> exists q, tr_step c (proj s) tt = Ok (proj s', q)) ->
    fresh_over c bs -> (exists b, In b bs /\ ~ high_and_low b) -> run step c s (ticks (length bs)) = Panic.
  Proof.
    intros ST H N. destruct (run step c s (ticks (length bs))) as [os|] eqn:R; [|reflexivity].
    destruct (inner_ok step tr_step proj ST _ _ _ _ R) as (qs & Q). rewrite (tr_panics _ c bs H N) in Q. discriminate.
  Qed.
  Ltac calls E := repeat match type of E with
      | rbind ?r _ = _ => let Q := fresh "Q" in destruct r as [?|] eqn:Q; cbn [rbind] in E; [|discriminate E]
      | match ?p with _ => _ end = _ => destruct p
      end.
  Ltac src_case := let E := fresh "E" in intros ? [] ? ? E;
    unfold bbpb_step, bbw_step, cmo_step, cci_step, cop_step, wpr_step in E; cbn zeta in E; calls E; injection E as <- _;
    eexists; reflexivity.
  Ltac tr_case := let E := fresh "E" in intros ? [] ? ? E;
    unfold cks_step, chop_step, vortex_step, dmi_step, atr_step in E; cbn zeta in E; calls E; injection E as <- _;
    repeat match goal with Q : rbind _ _ = Ok _ |- _ => calls Q; injection Q as <- _ end;
    eexists; first [reflexivity | eassumption].
  Ltac src_init E := unfold bb_new, cmo_new, cci_new, cop_new, wpr_new in E; calls E; injection E as <-; reflexivity.

  (** ... and panics as soon as one bar lacks it. *)
  Theorem C120_bars {S O} (new : res S) (step : ctx F -> S -> unit -> res (S * O)) need s c bs :
    needs new step need -> new = Ok s -> fresh_over c bs ->
    (run step c s (ticks (length bs)) = Panic <-> exists b, In b bs /\ ~ need b).
  Proof.
    intros K E H. split.
    - intros P. destruct (bad_bar need (needs_dec new step need K) bs) as [G | (h & b & t & -> & N)].
      + destruct (needs_enough new step need s c bs K E H G) as (os & R). congruence.
      + exists b. split; [apply in_elt | exact N].
    - intros N. destruct K as [k|n Hn| |k n x|k n x|n|k n|k n|k a b d|n|n|a b d|k n|na|n|p q x|n|n];
        try (destruct N as (? & _ & N); exfalso; apply N; exact I).
      + destruct s. apply src_panics; assumption.
      + apply src_inner_panics with (proj := bb_src) (k := k); [src_case | src_init E | assumption..].
      + apply src_inner_panics with (proj := bb_src) (k := k); [src_case | src_init E | assumption..].
      + apply src_inner_panics with (proj := cmo_src) (k := k); [src_case | src_init E | assumption..].
      + apply src_inner_panics with (proj := cci_src) (k := k); [src_case | src_init E | assumption..].
      + apply src_inner_panics with (proj := cp_src) (k := k); [src_case | src_init E | assumption..].
      + apply src_inner_panics with (proj := wp_src) (k := k); [src_case | src_init E | assumption..].
      + apply tr_panics; assumption.
      + apply tr_inner_panics with (proj := atr_tr); [tr_case | assumption..].
      + apply tr_inner_panics with (proj := fun s => atr_tr (ck_atr s)); [tr_case | assumption..].
      + apply tr_inner_panics with (proj := fun s => atr_tr (ch_atr s)); [tr_case | assumption..].
      + apply tr_inner_panics with (proj := fun s => atr_tr (vx_atr s)); [tr_case | assumption..].
  Qed.
  (** The directional movement index needs a high and a low of every bar as well. *)
  Theorem C120_dmi s (c : ctx F) bs a b : dmi_new a b = Ok s -> fresh_over c bs -> (exists b, In b bs /\ ~ high_and_low b) ->
    run dmi_step c s (ticks (length bs)) = Panic.
  Proof. intros _ H N. apply tr_inner_panics with (proj := dm_tr); [tr_case | assumption..]. Qed.
End Bars.

(** ** Examples *)
(** Six bars; the third has neither close nor volume, the fourth no open. *)
Definition holes : list (bar f64) :=
  [qbar (10, 13, 9, 12, 4)%Z; qbar (12, 15, 11, 14, 6)%Z; mkBar (Some (q 14)) (Some (q 16)) (Some (q 12)) None None;
   mkBar None (Some (q 15)) (Some (q 13)) (Some (q 14)) (Some (q 5)); qbar (14, 18, 13, 17, 9)%Z; qbar (17, 19, 16, 18, 8)%Z].
Example C120_holes : exists c, fresh_over c holes /\
  Forall (has_source SHL2) holes /\ Forall high_and_low holes /\ (exists b, In b holes /\ ~ has_source SHLC3 b) /\
  (exists os, run_new (chop_new 3) chop_step c (ticks 6) = Ok os) /\
  (exists os, run_new (cmf_new 3) cmf_step c (ticks 6) = Ok os) /\
  run_new (cci_new (src_box SHLC3) 2) cci_step c (ticks 6) = Panic /\
  run_new (s <- ma_new EMA 2 ;; l <- ma_new EMA 3 ;; sg <- ma_new EMA 2 ;; Ok (mkMacd (src_box SClose) (src_box SClose) s l sg)) macd_step c (ticks 6) = Panic.
Proof.
  destruct (ctx_over_fresh holes) as (c & _ & Hc & _); [discriminate|]. exists c. split; [exact Hc|].
  assert (A : Forall (has_source SHL2) holes) by (repeat constructor; discriminate).
  assert (B : Forall high_and_low holes) by (repeat constructor; discriminate).
  assert (D : exists b, In b holes /\ ~ has_source SHLC3 b).
  { eexists. split; [right; right; left; reflexivity|]. intros (_ & _ & Q). apply Q. reflexivity. }
  split; [exact A|]. split; [exact B|]. split; [exact D|].
  split; [|split; [|split]].
  - destruct (chop_new (F := f64) 3) as [s|] eqn:E; [|discriminate].
    destruct (needs_enough _ _ _ s c holes (N_chop 3) E Hc B) as (os & R). exists os. exact R.
  - destruct (cmf_new (F := f64) 3) as [s|] eqn:E; [|discriminate].
    destruct (needs_enough _ _ _ s c holes (N_cmf 3) E Hc) as (os & R); [|exists os; exact R]. apply Forall_forall. intros; exact I.
  - destruct (cci_new (F := f64) (src_box SHLC3) 2) as [s|] eqn:E; [|reflexivity].
    exact (proj2 (C120_bars _ _ _ s c holes (N_cci SHLC3 2) E Hc) D).
  - apply (proj2 (C120_macd SClose EMA 2 EMA 3 EMA 2 c holes ltac:(unfold is_raw; auto 6) ltac:(left; reflexivity) ltac:(left; reflexivity) ltac:(left; reflexivity) ltac:(lia) ltac:(lia) ltac:(lia) Hc)).
    exists 0, 2. split; [cbn; lia|]. split; [|reflexivity]. intros [|[|k]] Hk; cbn in Hk; [eexists; reflexivity | eexists; reflexivity | lia].
Qed.
