(** * PropMirror: C103, prices turned upside down.

    A falling market is a rising one seen in a mirror: every price [x] becomes
    [m - x] (so highs and lows change places).  In exact arithmetic averages
    turn over with the prices, oscillators reflect about the middle of their
    range, "up" and "down" lines change places, and a backtest in which long
    and short are exchanged as well makes the same profits. *)
From Verif Require Import PTa4 PExact3 Inst PropTa1 PropTa2 PropTa3 PropContent1 PropContent2 PropContent3 PropContent4 PropContent5 PropScale PropBacktest PropDefaults.
Local Open Scope R_scope.

Definition mir (m x : R) : R := m - x.
Definition mmap (m : R) (xs : list (option R)) : list (option R) := map (option_map (mir m)) xs.
Definition mbar (m : R) (r : rbar5) : rbar5 := mkRB (m - ro r) (m - rl r) (m - rh r) (m - rc r) (rv r).
(** An output [v] reflected: [s - v]. *)
Definition reflect (s : R) (o : option xr) : option xr := option_map (fun v => fsub (Fin s) v) o.
Definition swap {A} (x : A * A) : A * A := (snd x, fst x).

Lemma mir_aff m l : map (mir m) l = map (aff (-1) m) l.
Proof. apply map_ext. intros x. unfold mir, aff. ring. Qed.
Lemma mmap_amap m xs : mmap m xs = amap (-1) m xs.
Proof. apply map_ext. intros [x|]; [|reflexivity]. cbn. f_equal. unfold mir, aff. ring. Qed.
Lemma mir_opt m o : option_map (aff (-1) m) o = option_map (mir m) o.
Proof. destruct o; [|reflexivity]. cbn. f_equal. unfold mir, aff. ring. Qed.

(** ** Averages turn over with the prices (gaps included) *)
Definition turns_over {S} (new : res S) (step : ctx xr -> S -> option xr -> res (S * option xr)) : Prop :=
  forall (c : ctx xr) m xs, c_index c = 0%nat ->
  exists os, run_new new step c (lift xs) = Ok (lift os) /\
             run_new new step c (lift (mmap m xs)) = Ok (lift (mmap m os)).
Lemma turns_intro {S} (new : res S) step (f : list (option R) -> option R) :
  (forall c xs, c_index c = 0%nat -> run_new new step c (lift xs) = Ok (lift (each_prefix f xs))) ->
  (forall m h, f (amap (-1) m h) = option_map (aff (-1) m) (f h)) -> turns_over new step.
Proof.
  intros R E c m xs C. exists (each_prefix f xs). split; [apply R, C|]. rewrite R by exact C.
  rewrite !mmap_amap. unfold amap at 1. rewrite each_prefix_of_map. unfold amap. rewrite each_prefix_map. do 2 f_equal.
  apply each_prefix_ext. intros p. apply E.
Qed.
Theorem C103_sma len : (1 <= len)%nat -> turns_over (sma_new len) sma_step.
Proof.
  intros L. eapply turns_intro; [intros; apply sma_run_exact, L|]. intros m h. cbn beta. rewrite amap_window.
  destruct (window len h) as [w|] eqn:W; [|reflexivity]. cbn. f_equal. apply Rmean_aff. eapply window_nonnil; eassumption.
Qed.
Theorem C103_wma len : (1 <= len)%nat -> turns_over (wma_new len) wma_step.
Proof.
  intros L. eapply turns_intro; [intros; apply wma_run_exact; assumption|]. intros m h. cbn beta. rewrite amap_window.
  destruct (window len h) as [w|] eqn:W; [|reflexivity]. cbn. f_equal. apply Rwmean_aff. eapply window_nonnil; eassumption.
Qed.
Theorem C103_swma : turns_over swma_new swma_step.
Proof.
  eapply turns_intro; [intros; apply swma_run_exact; assumption|]. intros m h. cbn beta. rewrite amap_window.
  destruct (window 4 h) as [w|] eqn:W; [|reflexivity]. cbn. f_equal. apply Rswmean_aff. apply window_length in W. exact W.
Qed.
Lemma smooth_turns {S} (new : res S) step alpha len : (1 <= len)%nat ->
  (forall c n vs, run_new new step c (repeat None n ++ full vs) = Ok (repeat None n ++ lift (each_prefix (Rsmooth alpha len) vs))) ->
  forall (c : ctx xr) m n vs, exists os,
    run_new new step c (repeat None n ++ full vs) = Ok (lift os) /\
    run_new new step c (repeat None n ++ full (map (mir m) vs)) = Ok (lift (mmap m os)).
Proof.
  intros L R c m n vs. exists (repeat None n ++ each_prefix (Rsmooth alpha len) vs).
  rewrite !R, !lift_nones. split; [reflexivity|]. rewrite mmap_amap, mir_aff, amap_nones, each_prefix_of_map. unfold amap. rewrite each_prefix_map.
  do 3 f_equal. apply each_prefix_ext. intros p. apply Rsmooth_aff, L.
Qed.
(** The exponential and Wilder averages, on gap-free inputs after any warm-up. *)
Theorem C103_ema len (c : ctx xr) m n vs : (1 <= len)%nat -> exists os,
  run_new (ema_new len) ema_step c (repeat None n ++ full vs) = Ok (lift os) /\
  run_new (ema_new len) ema_step c (repeat None n ++ full (map (mir m) vs)) = Ok (lift (mmap m os)).
Proof. intros L. eapply smooth_turns; [exact L|]. intros. apply C11_ema_closed_form, L. Qed.
Theorem C103_rma len (c : ctx xr) m n vs : (1 <= len)%nat -> exists os,
  run_new (rma_new len) rma_step c (repeat None n ++ full vs) = Ok (lift os) /\
  run_new (rma_new len) rma_step c (repeat None n ++ full (map (mir m) vs)) = Ok (lift (mmap m os)).
Proof. intros L. eapply smooth_turns; [exact L|]. intros. apply C12_rma_closed_form, L. Qed.

(** ** The highest becomes the lowest *)
Lemma Rmaxl_mir m l : forall x, Rmaxl (mir m x) (map (mir m) l) = mir m (Rminl x l).
Proof.
  induction l as [|y l IH]; intros x; [reflexivity|]. cbn [map Rmaxl Rminl]. rewrite <- IH. f_equal.
  unfold mir, Rmax, Rmin. destruct (Rle_dec (m - x) (m - y)), (Rle_dec x y); lra.
Qed.
Lemma Rminl_mir m l : forall x, Rminl (mir m x) (map (mir m) l) = mir m (Rmaxl x l).
Proof.
  induction l as [|y l IH]; intros x; [reflexivity|]. cbn [map Rmaxl Rminl]. rewrite <- IH. f_equal.
  unfold mir, Rmax, Rmin. destruct (Rle_dec (m - x) (m - y)), (Rle_dec x y); lra.
Qed.
Lemma mmap_lastn m n h : lastn n (mmap m h) = mmap m (lastn n h).
Proof. unfold lastn, mmap. rewrite map_length. apply skipn_map. Qed.
Lemma mmap_present m h : present (mmap m h) = map (mir m) (present h).
Proof. unfold mmap. induction h as [|[x|] h IH]; cbn; congruence. Qed.
Lemma Rmaximum_mir m l : Rmaximum (map (mir m) l) = option_map (mir m) (Rminimum l).
Proof. destruct l; [reflexivity|]. cbn [map Rmaximum Rminimum option_map]. rewrite Rmaxl_mir. reflexivity. Qed.
Lemma Rminimum_mir m l : Rminimum (map (mir m) l) = option_map (mir m) (Rmaximum l).
Proof. destruct l; [reflexivity|]. cbn [map Rmaximum Rminimum option_map]. rewrite Rminl_mir. reflexivity. Qed.
Theorem C103_highest len (c : ctx xr) m xs : (1 <= len)%nat -> c_index c = 0%nat ->
  exists lows, run_new (lowest_new len) lowest_step c (lift xs) = Ok (lift lows) /\
               run_new (highest_new len) highest_step c (lift (mmap m xs)) = Ok (lift (mmap m lows)).
Proof.
  intros L C. eexists. split; [apply lowest_run_lift; assumption|]. rewrite highest_run_lift by assumption.
  unfold mmap at 1. rewrite each_prefix_of_map. unfold mmap. rewrite each_prefix_map. do 2 f_equal.
  apply each_prefix_ext. intros p. change (map (option_map (mir m)) p) with (mmap m p).
  rewrite mmap_lastn, mmap_present, Rmaximum_mir. unfold mmap. rewrite map_length. destruct (_ <=? _)%nat; reflexivity.
Qed.
Theorem C103_lowest len (c : ctx xr) m xs : (1 <= len)%nat -> c_index c = 0%nat ->
  exists highs, run_new (highest_new len) highest_step c (lift xs) = Ok (lift highs) /\
                run_new (lowest_new len) lowest_step c (lift (mmap m xs)) = Ok (lift (mmap m highs)).
Proof.
  intros L C. eexists. split; [apply highest_run_lift; assumption|]. rewrite lowest_run_lift by assumption.
  unfold mmap at 1. rewrite each_prefix_of_map. unfold mmap. rewrite each_prefix_map. do 2 f_equal.
  apply each_prefix_ext. intros p. change (map (option_map (mir m)) p) with (mmap m p).
  rewrite mmap_lastn, mmap_present, Rminimum_mir. unfold mmap. rewrite map_length. destruct (_ <=? _)%nat; reflexivity.
Qed.

(** ** The relative strength index reflects about 50 *)
Lemma diffs_mir m l : diffs (map (mir m) l) = map Ropp (diffs l).
Proof. rewrite mir_aff, diffs_aff. apply map_ext. intros; ring. Qed.
Lemma Rgains_mir m l : Rgains (map (mir m) l) = Rlosses l.
Proof. unfold Rgains, Rlosses. rewrite diffs_mir, map_map. reflexivity. Qed.
Lemma Rlosses_mir m l : Rlosses (map (mir m) l) = Rgains l.
Proof. unfold Rgains, Rlosses. rewrite diffs_mir, map_map. apply map_ext. intros d. rewrite Ropp_involutive. reflexivity. Qed.
Lemma Rsmooth_nonneg alpha len l v : 0 <= alpha <= 1 -> Forall (fun x => 0 <= x) l -> Rsmooth alpha len l = Some v -> 0 <= v.
Proof.
  intros A P. unfold Rsmooth. destruct (length l <? len)%nat; [discriminate|]. intros E. injection E as <-.
  assert (Q : 0 <= Rmean (firstn len l)).
  { unfold Rmean. assert (G : forall l, Forall (fun x => 0 <= x) l -> 0 <= Rsum l) by (induction 1; cbn; lra).
    assert (F : Forall (fun x => 0 <= x) (firstn len l)).
    { rewrite Forall_forall in *. intros x X. apply P. rewrite <- (firstn_skipn len l). apply in_or_app. left. exact X. }
    destruct (firstn len l) as [|x t] eqn:D; [unfold Rdiv; cbn; lra|]. apply Rmult_le_pos; [apply G, F|].
    left. apply Rinv_0_lt_compat, lt_0_INR. cbn; lia. }
  assert (F : Forall (fun x => 0 <= x) (skipn len l)).
  { rewrite Forall_forall in *. intros x X. apply P. rewrite <- (firstn_skipn len l). apply in_or_app. right. exact X. }
  revert Q F. generalize (Rmean (firstn len l)). induction (skipn len l) as [|x t IH]; intros q Q F; [exact Q|].
  inversion F; subst. cbn [fold_left]. apply IH; [nra|assumption].
Qed.
Lemma Rrsi_of_swap u d : 0 <= u -> 0 <= d -> Rrsi_of d u = fsub (Fin 100) (Rrsi_of u d).
Proof.
  intros U D. unfold Rrsi_of. destruct (Req_EM_T u 0) as [Hu|Hu], (Req_EM_T d 0) as [Hd|Hd]; try reflexivity.
  - rewrite fin_sub. f_equal. subst u. field. lra.
  - rewrite fin_sub. f_equal. subst d. field. exact Hu.
  - rewrite fin_sub. f_equal. field. repeat split; lra.
Qed.
Lemma Rrsi_mir len m vs : (1 <= len)%nat -> Rrsi len (map (mir m) vs) = reflect 100 (Rrsi len vs).
Proof.
  intros L. unfold Rrsi. rewrite Rgains_mir, Rlosses_mir.
  assert (A : 0 <= 1 / INR len <= 1).
  { assert (1 <= INR len) by (replace 1 with (INR 1) by reflexivity; apply le_INR; exact L). split.
    - apply Rmult_le_pos; [lra|]. left. apply Rinv_0_lt_compat. lra.
    - apply Rmult_le_reg_r with (INR len); [lra|]. unfold Rdiv. rewrite Rmult_assoc, Rinv_l by lra. lra. }
  assert (GP : Forall (fun x => 0 <= x) (Rgains vs)) by (apply Forall_map, Forall_forall; intros ? _; cbn beta; apply Rmax_r).
  assert (LP : Forall (fun x => 0 <= x) (Rlosses vs)) by (apply Forall_map, Forall_forall; intros ? _; cbn beta; apply Rmax_r).
  destruct (Rsmooth _ _ (Rgains vs)) as [u|] eqn:EU, (Rsmooth _ _ (Rlosses vs)) as [d|] eqn:ED; try reflexivity.
  cbn [reflect option_map]. f_equal. apply Rrsi_of_swap; [exact (Rsmooth_nonneg _ _ _ _ A GP EU)|exact (Rsmooth_nonneg _ _ _ _ A LP ED)].
Qed.
Lemma map_repeat_none {A B} (g : option A -> option B) n : g None = None -> map g (repeat None n) = repeat None n.
Proof. intros E. induction n; cbn; congruence. Qed.
Theorem C103_rsi len (c : ctx xr) m n vs : (2 <= len)%nat ->
  exists os, run_new (rsi_new len) rsi_step c (repeat None n ++ full vs) = Ok os /\
             run_new (rsi_new len) rsi_step c (repeat None n ++ full (map (mir m) vs)) = Ok (map (reflect 100) os).
Proof.
  intros L. rewrite !C22_rsi_formula by exact L. eexists; split; [reflexivity|].
  rewrite map_app, map_repeat_none by reflexivity. do 2 f_equal. rewrite each_prefix_of_map, each_prefix_map. apply each_prefix_ext.
  intros p. apply Rrsi_mir. lia.
Qed.

(** ** Bars *)
Section Bars.
  Variable m : R.
  Notation MB := (mbar m).
  Lemma Rtr_mir p r : Rtr (MB p) (MB r) = Rtr p r.
  Proof.
    unfold Rtr. cbn [mbar rh rl rc].
    replace (m - rl r - (m - rh r)) with (rh r - rl r) by ring.
    replace (m - rl r - (m - rc p)) with (- (rl r - rc p)) by ring.
    replace (m - rh r - (m - rc p)) with (- (rh r - rc p)) by ring. rewrite !Rabs_Ropp.
    rewrite <- !Rmax_assoc. f_equal. apply Rmax_comm.
  Qed.
  Lemma Rtrs_mir h : Rtrs (map MB h) = Rtrs h.
  Proof.
    destruct h as [|r h]; [reflexivity|]. unfold Rtrs. cbn [map]. change (MB r :: map MB h) with (map MB (r :: h)).
    rewrite pairs_map, !map_map. f_equal; [cbn [mbar rh rl]; ring|]. apply map_ext. intros p. apply Rtr_mir.
  Qed.
  Lemma max_mir x w : is_max x (map rh (map MB w)) -> is_min (m - x) (map rl w).
  Proof.
    rewrite map_map. cbn [mbar rh]. intros [I A]. split.
    - apply in_map_iff in I. destruct I as (r & <- & I). apply in_map_iff. exists r. split; [ring|exact I].
    - apply Forall_map. rewrite Forall_map in A. eapply Forall_impl; [|exact A]. cbn beta. intros r Hr. lra.
  Qed.
  Lemma min_mir x w : is_min x (map rl (map MB w)) -> is_max (m - x) (map rh w).
  Proof.
    rewrite map_map. cbn [mbar rl]. intros [I A]. split.
    - apply in_map_iff in I. destruct I as (r & <- & I). apply in_map_iff. exists r. split; [ring|exact I].
    - apply Forall_map. rewrite Forall_map in A. eapply Forall_impl; [|exact A]. cbn beta. intros r Hr. lra.
  Qed.
End Bars.

Section Mirror.
  Variables (m : R) (c c' : ctx xr) (rs : list rbar5).
  Hypothesis HF : fresh_over c (map bar_of rs).
  Hypothesis HF' : fresh_over c' (map bar_of (map (mbar m) rs)).
  Notation n := (length rs).
  Lemma nth_bar' i : (i < n)%nat -> exists r, nth_error rs i = Some r.
  Proof. intros H. destruct (nth_error rs i) eqn:E; [eauto|]. apply nth_error_None in E. lia. Qed.
  Lemma window_mir len i : full_window len (firstn (S i) (map (mbar m) rs)) = option_map (map (mbar m)) (full_window len (firstn (S i) rs)).
  Proof. rewrite firstn_map. apply full_window_map. Qed.

  (** True range and average true range do not change. *)
  Theorem C103_tr : exists ts, run tr_step c true (ticks n) = Ok ts /\ run tr_step c' true (ticks n) = Ok ts.
  Proof.
    exists (full (Rtrs rs)). split.
    - rewrite <- (map_length bar_of rs), tr_run, tr_series by (auto; apply full_has_hl). reflexivity.
    - rewrite <- (map_length (mbar m) rs), <- (map_length bar_of (map _ rs)), tr_run, tr_series, Rtrs_mir by (auto; apply full_has_hl). reflexivity.
  Qed.
  Theorem C103_atr len : (1 <= len)%nat ->
    exists os, run_new (atr_new len) atr_step c (ticks n) = Ok os /\ run_new (atr_new len) atr_step c' (ticks n) = Ok os.
  Proof.
    intros L. exists (lift (each_prefix (fun h => Rsmooth (1 / INR len) len (Rtrs h)) rs)). unfold run_new.
    destruct (atr_run len c (map bar_of rs) L HF (full_has_hl rs)) as (s & E & R).
    destruct (atr_run len c' (map bar_of (map (mbar m) rs)) L HF' (full_has_hl _)) as (s' & E' & R').
    assert (s' = s) by congruence. subst s'. rewrite E. cbn [rbind].
    rewrite map_length in R. rewrite map_length, map_length in R'. rewrite R, R'. unfold lift. rewrite !each_prefix_of_map, !each_prefix_map.
    split; f_equal; apply each_prefix_ext; intros p.
    - apply atr_bar, L.
    - rewrite atr_bar, Rtrs_mir by assumption. reflexivity.
  Qed.
  (** Donchian channel: upside down, upper and lower edge change places. *)
  Theorem C103_donchian len : (1 <= len)%nat ->
    exists os, run_new (don_new len) don_step c (ticks n) = Ok os /\
      run_new (don_new len) don_step c' (ticks n) = Ok (map (fun '(u, mid, l) => (reflect m l, reflect m mid, reflect m u)) os).
  Proof.
    intros L.
    destruct (C51_exact len c rs L HF) as (os & E & LO & A).
    destruct (C51_exact len c' (map (mbar m) rs) L HF') as (os' & E' & LO' & A').
    rewrite map_length in E', LO'. exists os. split; [exact E|]. rewrite E'. f_equal. apply eq_nth; [rewrite map_length; lia|].
    intros i x y X Y. rewrite nth_error_map in Y. destruct (nth_error os i) as [z|] eqn:Z; [|discriminate]. injection Y as <-.
    assert (B : (i < n)%nat) by (rewrite <- LO; apply nth_error_Some; congruence). destruct (nth_bar' i B) as [r Hr].
    specialize (A i r z Hr Z). specialize (A' i _ x (map_nth_error _ _ _ Hr) X). rewrite window_mir in A'.
    destruct (full_window len _) as [w|]; [|cbn in A'; subst; reflexivity]. cbn [option_map] in A'.
    destruct A as (u & l & -> & U & D & _), A' as (u' & l' & -> & U' & D' & _).
    apply max_mir in U'. apply min_mir in D'.
    pose proof (min_unique _ _ _ D U'). pose proof (max_unique _ _ _ U D').
    cbn [reflect option_map]. rewrite !fin_sub. f_equal; [f_equal|]; do 2 f_equal; lra.
  Qed.
  (** Williams %R reflects about -50. *)
  Theorem C103_williams len src src' vs : (1 <= len)%nat -> length vs = n ->
    feeds c src (full vs) -> feeds c' src' (full (map (mir m) vs)) ->
    exists os, run_new (wpr_new src len) wpr_step c (ticks n) = Ok os /\
               run_new (wpr_new src' len) wpr_step c' (ticks n) = Ok (map (reflect (-100)) os).
  Proof.
    intros L LV FS FS'.
    destruct (C52_exact len c src vs rs L LV FS HF) as (os & E & LO & A).
    destruct (C52_exact len c' src' (map (mir m) vs) (map (mbar m) rs) L ltac:(rewrite !map_length; exact LV) FS' HF') as (os' & E' & LO' & A').
    rewrite map_length in E', LO'. exists os. split; [exact E|]. rewrite E'. f_equal. apply eq_nth; [rewrite map_length; lia|].
    intros i x y X Y. rewrite nth_error_map in Y. destruct (nth_error os i) as [z|] eqn:Z; [|discriminate]. injection Y as <-.
    assert (B : (i < n)%nat) by (rewrite <- LO; apply nth_error_Some; congruence).
    destruct (nth_bar' i B) as [r Hr]. destruct (nth_error vs i) as [v|] eqn:Hv; [|apply nth_error_None in Hv; lia].
    specialize (A i v r z Hv Hr Z). specialize (A' i _ _ x (map_nth_error _ _ _ Hv) (map_nth_error _ _ _ Hr) X).
    rewrite window_mir in A'. destruct (full_window len (firstn (S i) rs)) as [w|]; [|cbn in A'; subst; reflexivity].
    cbn [option_map] in A'. destruct A as (u & l & U & D & A1 & A2), A' as (u' & l' & U' & D' & A1' & A2').
    apply max_mir in U'. apply min_mir in D'. pose proof (min_unique _ _ _ D U') as Q1. pose proof (max_unique _ _ _ U D') as Q2.
    destruct (Req_dec u l) as [Q|Q].
    - rewrite (A1 Q), A1' by lra. reflexivity.
    - rewrite (proj1 (A2 Q)), (proj1 (A2' ltac:(lra))). cbn [reflect option_map]. rewrite fin_sub. do 2 f_equal.
      unfold mir. replace u' with (m - l) by lra. replace l' with (m - u) by lra. field. repeat split; lra.
  Qed.
  (** The Chande momentum oscillator, balance of power, money flow and the
      commodity channel index change sign. *)
  Theorem C103_cmo len src src' vs : (2 <= len)%nat -> length vs = n ->
    feeds c src (full vs) -> feeds c' src' (full (map (mir m) vs)) ->
    exists os, run_new (cmo_new src len) cmo_step c (ticks n) = Ok os /\
               run_new (cmo_new src' len) cmo_step c' (ticks n) = Ok (map (reflect 0) os).
  Proof.
    intros L LV FS FS'.
    destruct (C55_exact len c src vs L FS) as (os & E & LO & A).
    destruct (C55_exact len c' src' (map (mir m) vs) L FS') as (os' & E' & LO' & A').
    rewrite map_length in E', LO'. rewrite LV in *. exists os. split; [exact E|]. rewrite E'. f_equal. apply eq_nth; [rewrite map_length; lia|].
    intros i x y X Y. rewrite nth_error_map in Y. destruct (nth_error os i) as [z|] eqn:Z; [|discriminate]. injection Y as <-.
    specialize (A i z Z). specialize (A' i x X). rewrite firstn_map, diffs_mir, full_window_map in A'.
    destruct (full_window len _) as [w|]; [|cbn in A'; subst; reflexivity]. cbn [option_map] in A'. cbv zeta in A, A'.
    assert (TR : total_rise (map Ropp w) = total_fall w) by (unfold total_rise, total_fall; rewrite map_map; reflexivity).
    assert (TF : total_fall (map Ropp w) = total_rise w).
    { unfold total_rise, total_fall. rewrite map_map. f_equal. apply map_ext. intros d. rewrite Ropp_involutive. reflexivity. }
    rewrite TR, TF in A'. destruct A as [A1 A2], A' as [A1' A2'].
    destruct (Req_dec (total_rise w + total_fall w) 0) as [Q|Q].
    - pose proof (proj1 (nothing_moved w) Q) as NM.
      assert (Q' : Forall (fun x => x = 0) (map Ropp w)) by (apply nothing_moved; rewrite TR, TF; lra).
      rewrite (A1 NM), (A1' Q'). reflexivity.
    - assert (NM : ~ Forall (fun x => x = 0) w) by (intros H; apply Q, nothing_moved, H).
      assert (NM' : ~ Forall (fun x => x = 0) (map Ropp w)) by (intros H; apply nothing_moved in H; rewrite TR, TF in H; lra).
      rewrite (proj1 (A2 NM)), (proj1 (A2' NM')). cbn [reflect option_map]. rewrite fin_sub. do 2 f_equal. field. lra.
  Qed.
  Theorem C103_bop : exists os, run bop_step c tt (ticks n) = Ok os /\ run bop_step c' tt (ticks n) = Ok (map (reflect 0) os).
  Proof.
    destruct (C53_bop c (map bar_of rs) HF) as (os & E & LO & A).
    destruct (C53_bop c' (map bar_of (map (mbar m) rs)) HF') as (os' & E' & LO' & A').
    rewrite !map_length in *. exists os. split; [exact E|]. rewrite E'. f_equal. apply eq_nth; [rewrite map_length; lia|].
    intros i x y X Y. rewrite nth_error_map in Y. destruct (nth_error os i) as [z|] eqn:Z; [|discriminate]. injection Y as <-.
    assert (B : (i < n)%nat) by (rewrite <- LO; apply nth_error_Some; congruence).
    destruct (nth_bar' i B) as [r Hr].
    specialize (A i _ (map_nth_error bar_of _ _ Hr)). specialize (A' i _ (map_nth_error bar_of _ _ (map_nth_error (mbar m) _ _ Hr))).
    rewrite Z in A. rewrite X in A'. injection A as ->. injection A' as ->.
    cbn [bar_of mbar b_open b_high b_low b_close ro rh rl rc]. rewrite !fin_eq.
    destruct (Reqb_spec (m - rl r) (m - rh r)) as [Q|Q], (Reqb_spec (rh r) (rl r)) as [Q'|Q']; try reflexivity; try (exfalso; lra).
    cbn [reflect option_map]. repeat (destruct (Req_EM_T _ 0); [exfalso; lra|]). cbn. do 2 f_equal. field. repeat split; lra.
  Qed.
  Theorem C103_cmf len : (1 <= len)%nat ->
    exists os, run_new (cmf_new len) cmf_step c (ticks n) = Ok os /\ run_new (cmf_new len) cmf_step c' (ticks n) = Ok (map (reflect 0) os).
  Proof.
    intros L.
    destruct (C54_exact len c rs L HF) as (os & E & LO & A).
    destruct (C54_exact len c' (map (mbar m) rs) L HF') as (os' & E' & LO' & A').
    rewrite map_length in E', LO'. exists os. split; [exact E|]. rewrite E'. f_equal. apply eq_nth; [rewrite map_length; lia|].
    intros i x y X Y. rewrite nth_error_map in Y. destruct (nth_error os i) as [z|] eqn:Z; [|discriminate]. injection Y as <-.
    specialize (A i z Z). specialize (A' i x X). rewrite window_mir in A'.
    destruct (full_window len (firstn (S i) rs)) as [w|]; [|cbn in A'; subst; reflexivity]. cbn [option_map] in A'.
    assert (V : map rv (map (mbar m) w) = map rv w) by (rewrite map_map; reflexivity).
    assert (FL : Rsum (map Rflow (map (mbar m) w)) = - Rsum (map Rflow w)).
    { clear. induction w as [|r w IH]; cbn [map Rsum]; [ring|]. rewrite IH. unfold Rflow at 1 3. cbn [mbar rh rl rc rv].
      destruct (Req_EM_T (m - rl r) (m - rh r)) as [Q|Q], (Req_EM_T (rh r) (rl r)) as [Q'|Q']; try (exfalso; lra); [ring|].
      field. repeat split; lra. }
    rewrite V, FL in A'. destruct A as (A1 & A2 & _), A' as (A1' & A2' & _).
    destruct (Req_dec (Rsum (map rv w)) 0) as [Q|Q]; [rewrite (A1 Q), (A1' Q); reflexivity|].
    rewrite (A2 Q), (A2' Q). cbn [reflect option_map]. rewrite fin_sub. do 2 f_equal. field. exact Q.
  Qed.
  Theorem C103_cci len src src' vs : (2 <= len)%nat -> length vs = n ->
    feeds c src (full vs) -> feeds c' src' (full (map (mir m) vs)) ->
    exists os, run_new (cci_new src len) cci_step c (ticks n) = Ok os /\
               run_new (cci_new src' len) cci_step c' (ticks n) = Ok (map (reflect 0) os).
  Proof.
    intros L LV FS FS'.
    destruct (C60_exact len c src vs L FS) as (os & E & LO & A).
    destruct (C60_exact len c' src' (map (mir m) vs) L FS') as (os' & E' & LO' & A').
    rewrite map_length in E', LO'. rewrite LV in *. exists os. split; [exact E|]. rewrite E'. f_equal. apply eq_nth; [rewrite map_length; lia|].
    intros i x y X Y. rewrite nth_error_map in Y. destruct (nth_error os i) as [z|] eqn:Z; [|discriminate]. injection Y as <-.
    assert (B : (i < n)%nat) by (rewrite <- LO; apply nth_error_Some; congruence).
    destruct (nth_error vs i) as [v|] eqn:Hv; [|apply nth_error_None in Hv; lia].
    specialize (A i v z Hv Z). specialize (A' i _ x (map_nth_error _ _ _ Hv) X). rewrite firstn_map, full_window_map in A'.
    destruct (full_window len _) as [w|] eqn:W; [|cbn in A'; subst; reflexivity]. cbn [option_map] in A'.
    apply full_window_Some in W. destruct W as (_ & W & _). assert (NW : w <> []) by (intros ->; cbn in W; lia).
    assert (ME : Rmean (map (mir m) w) = m - Rmean w) by (rewrite mir_aff, Rmean_aff by exact NW; unfold aff; ring).
    assert (MA : Rmad (map (mir m) w) = Rmad w).
    { unfold Rmad. rewrite ME, map_map. f_equal. apply map_ext. intros u. unfold mir.
      replace (m - u - (m - Rmean w)) with (- (u - Rmean w)) by ring. apply Rabs_Ropp. }
    rewrite MA, ME in A'. destruct A as [A1 A2], A' as [A1' A2'].
    destruct (Req_dec (Rmad w) 0) as [Q|Q].
    - rewrite (A1 Q), (A1' Q). reflexivity.
    - rewrite (A2 Q), (A2' Q). cbn [reflect option_map]. rewrite fin_sub. do 2 f_equal. unfold mir. field. exact Q.
  Qed.
  (** Vortex: the two lines change places. *)
  Lemma vortex_mir f g w : (forall p r, f (mbar m p) (mbar m r) = g p r) ->
    vortex_ratio f (map (fun p => (mbar m (fst p), mbar m (snd p))) w) = vortex_ratio g w.
  Proof.
    intros H. unfold vortex_ratio. rewrite !map_map. cbn [fst snd].
    rewrite (map_ext (fun p => Rtr (mbar m (fst p)) (mbar m (snd p))) (fun p => Rtr (fst p) (snd p))) by (intros; apply Rtr_mir).
    rewrite (map_ext (fun p => f (mbar m (fst p)) (mbar m (snd p))) (fun p => g (fst p) (snd p))) by (intros; apply H). reflexivity.
  Qed.
  Theorem C103_vortex len : (1 <= len)%nat ->
    exists os, run_new (vortex_new len) vortex_step c (ticks n) = Ok os /\ run_new (vortex_new len) vortex_step c' (ticks n) = Ok (map swap os).
  Proof.
    intros L.
    destruct (C67_exact len c rs L HF) as (os & E & LO & A).
    destruct (C67_exact len c' (map (mbar m) rs) L HF') as (os' & E' & LO' & A').
    rewrite map_length in E', LO'. exists os. split; [exact E|]. rewrite E'. f_equal. apply eq_nth; [rewrite map_length; lia|].
    intros i x y X Y. rewrite nth_error_map in Y. destruct (nth_error os i) as [z|] eqn:Z; [|discriminate]. injection Y as <-.
    specialize (A i z Z). specialize (A' i x X). rewrite firstn_map, pairs_map, full_window_map in A'.
    destruct (full_window len _) as [w|]; [|cbn in A'; subst; reflexivity]. cbn [option_map] in A'.
    rewrite (proj1 A), (proj1 A'). unfold swap. cbn [fst snd].
    rewrite (vortex_mir Rvp Rvm), (vortex_mir Rvm Rvp); [reflexivity| |];
      intros p r; unfold Rvp, Rvm; cbn [mbar rh rl].
    - replace (m - rh r - (m - rl p)) with (- (rh r - rl p)) by ring. apply Rabs_Ropp.
    - replace (m - rl r - (m - rh p)) with (- (rl r - rh p)) by ring. apply Rabs_Ropp.
  Qed.
  (** Directional movement: plus and minus change places, ADX stays, NaN and all. *)
  Lemma on_pairs_mir f g h : (forall p r, f (mbar m p) (mbar m r) = g p r) -> on_pairs f (map (mbar m) h) = on_pairs g h.
  Proof. intros H. unfold on_pairs. rewrite pairs_map, map_map. apply map_ext. intros p. apply H. Qed.
  Lemma di_mir f g len h : (forall p r, f (mbar m p) (mbar m r) = g p r) -> di f len (map (mbar m) h) = di g len h.
  Proof.
    intros H. unfold di. do 2 f_equal. rewrite each_prefix_of_map. apply each_prefix_ext. intros p. unfold di_now.
    rewrite (on_pairs_mir f g), (on_pairs_mir Rtr Rtr); [reflexivity|intros; apply Rtr_mir|exact H].
  Qed.
  Lemma Rup_mir p r : Rup (mbar m p) (mbar m r) = Rdown p r.
  Proof.
    unfold Rup, Rdown. cbn [mbar rh rl]. replace (m - rh p - (m - rh r)) with (rh r - rh p) by ring.
    replace (m - rl r - (m - rl p)) with (rl p - rl r) by ring. reflexivity.
  Qed.
  Lemma Rdown_mir p r : Rdown (mbar m p) (mbar m r) = Rup p r.
  Proof.
    unfold Rup, Rdown. cbn [mbar rh rl]. replace (m - rh p - (m - rh r)) with (rh r - rh p) by ring.
    replace (m - rl r - (m - rl p)) with (rl p - rl r) by ring. reflexivity.
  Qed.
  Lemma dx_comm (p q : option R) : dmi_dx (option_map Fin p) (option_map Fin q) = dmi_dx (option_map Fin q) (option_map Fin p).
  Proof.
    destruct p as [p|], q as [q|]; try reflexivity. cbn [option_map]. unfold dmi_dx. f_equal.
    rewrite !fin_neg, !fin_sub, !fin_add, !fin_abs, !fin_eq, (Rplus_comm q p).
    replace (Rabs (q - p)) with (Rabs (p - q)) by apply Rabs_minus_sym. do 2 f_equal.
    destruct (Reqb_spec p (- q)), (Reqb_spec q (- p)); try reflexivity; lra.
  Qed.
  Theorem C103_dmi len lensig : (1 <= len)%nat -> (1 <= lensig)%nat ->
    exists os, run_new (dmi_new len lensig) dmi_step c (ticks n) = Ok os /\
      run_new (dmi_new len lensig) dmi_step c' (ticks n) = Ok (map (fun '(plus, minus, adx) => (minus, plus, adx)) os).
  Proof.
    intros L1 L2. pose proof (dmi_run len lensig c _ L1 L2 HF (full_has_hlc rs)) as R.
    pose proof (dmi_run len lensig c' _ L1 L2 HF' (full_has_hlc _)) as R'. rewrite map_length in R. rewrite !map_length in R'.
    rewrite R, R'. eexists. split; [reflexivity|]. f_equal. rewrite each_prefix_map, !each_prefix_of_map. apply each_prefix_ext. intros h.
    assert (DX : forall h, dmi_dx_of len (map bar_of (map (mbar m) h)) = dmi_dx_of len (map bar_of h)).
    { intros h0. unfold dmi_dx_of. rewrite !(di_exact len plus_dm Rup _ L1 plus_series), !(di_exact len minus_dm Rdown _ L1 minus_series).
      rewrite (di_mir Rup Rdown _ _ Rup_mir), (di_mir Rdown Rup _ _ Rdown_mir). apply dx_comm. }
    unfold dmi_out. rewrite !(di_exact len plus_dm Rup _ L1 plus_series), !(di_exact len minus_dm Rdown _ L1 minus_series).
    rewrite (di_mir Rup Rdown _ _ Rup_mir), (di_mir Rdown Rup _ _ Rdown_mir). f_equal. do 2 f_equal.
    rewrite !each_prefix_of_map. apply each_prefix_ext. exact DX.
  Qed.
  (** Aroon: up and down change places. *)
  Lemma first_mir (w : list R) j j' :
    first_min (lift (map Some w)) j -> first_max (lift (map Some (map (mir m) w))) j' -> j = j'.
  Proof.
    intros (x & M & A & B) (x' & M' & A' & B').
    assert (N : forall i, nth_error (lift (map Some (map (mir m) w))) i = option_map (fun v => Some (Fin (m - v))) (nth_error w i)).
    { intros i. unfold lift. rewrite !nth_error_map. destruct (nth_error w i); reflexivity. }
    assert (N0 : forall i, nth_error (lift (map Some w)) i = option_map (fun v => Some (Fin v)) (nth_error w i)).
    { intros i. unfold lift. rewrite !nth_error_map. destruct (nth_error w i); reflexivity. }
    rewrite N0 in M. rewrite N in M'.
    destruct (nth_error w j) as [u|] eqn:X; [|discriminate]. destruct (nth_error w j') as [v|] eqn:Y; [|discriminate].
    cbn in M, M'. injection M as <-. injection M' as <-.
    destruct (Nat.lt_trichotomy j j') as [H|[H|H]]; [|exact H|].
    - specialize (B' j (Fin (m - u)) H). rewrite N, X in B'. specialize (B' eq_refl). rewrite fin_lt in B'.
      specialize (A j' (Fin v)). rewrite N0, Y in A. specialize (A eq_refl). rewrite fin_le in A.
      destruct (Rltb_spec (m - u) (m - v)); [|discriminate]. destruct (Rleb_spec u v); [lra|discriminate].
    - specialize (B j' (Fin v) H). rewrite N0, Y in B. specialize (B eq_refl). rewrite fin_lt in B.
      specialize (A' j (Fin (m - u))). rewrite N, X in A'. specialize (A' eq_refl). rewrite fin_le in A'.
      destruct (Rleb_spec (m - u) (m - v)); [|discriminate]. destruct (Rltb_spec u v); [lra|discriminate].
  Qed.
  Lemma first_mir' (w : list R) j j' :
    first_max (lift (map Some w)) j -> first_min (lift (map Some (map (mir m) w))) j' -> j = j'.
  Proof.
    intros (x & M & A & B) (x' & M' & A' & B').
    assert (N : forall i, nth_error (lift (map Some (map (mir m) w))) i = option_map (fun v => Some (Fin (m - v))) (nth_error w i)).
    { intros i. unfold lift. rewrite !nth_error_map. destruct (nth_error w i); reflexivity. }
    assert (N0 : forall i, nth_error (lift (map Some w)) i = option_map (fun v => Some (Fin v)) (nth_error w i)).
    { intros i. unfold lift. rewrite !nth_error_map. destruct (nth_error w i); reflexivity. }
    rewrite N0 in M. rewrite N in M'.
    destruct (nth_error w j) as [u|] eqn:X; [|discriminate]. destruct (nth_error w j') as [v|] eqn:Y; [|discriminate].
    cbn in M, M'. injection M as <-. injection M' as <-.
    destruct (Nat.lt_trichotomy j j') as [H|[H|H]]; [|exact H|].
    - specialize (B' j (Fin (m - u)) H). rewrite N, X in B'. specialize (B' eq_refl). rewrite fin_lt in B'.
      specialize (A j' (Fin v)). rewrite N0, Y in A. specialize (A eq_refl). rewrite fin_le in A.
      destruct (Rltb_spec (m - v) (m - u)); [|discriminate]. destruct (Rleb_spec v u); [lra|discriminate].
    - specialize (B j' (Fin v) H). rewrite N0, Y in B. specialize (B eq_refl). rewrite fin_lt in B.
      specialize (A' j (Fin (m - u))). rewrite N, X in A'. specialize (A' eq_refl). rewrite fin_le in A'.
      destruct (Rleb_spec (m - v) (m - u)); [|discriminate]. destruct (Rltb_spec v u); [lra|discriminate].
  Qed.
  Lemma last_col (g : rbar5 -> R) (p : bar xr -> option xr) len i l : (forall r, p (bar_of r) = Some (Fin (g r))) ->
    lastn len (firstn (S i) (map p (map bar_of l))) = lift (map Some (lastn len (firstn (S i) (map g l)))).
  Proof.
    intros E. unfold lift, lastn. rewrite !firstn_map, !map_length, !skipn_map, !map_map. apply map_ext. intros r. apply E.
  Qed.
  Theorem C103_aroon len : (1 <= len)%nat -> (Z.of_nat len <= 2 ^ 31)%Z ->
    exists os, run_new (aroon_new len) aroon_step c (ticks n) = Ok os /\ run_new (aroon_new len) aroon_step c' (ticks n) = Ok (map swap os).
  Proof.
    intros L L31.
    destruct (C47_aroon len c (map bar_of rs) L L31 HF (full_has_hl _)) as (os & E & LO & A);
      [apply (no_nan_fin rh); reflexivity|apply (no_nan_fin rl); reflexivity|].
    destruct (C47_aroon len c' (map bar_of (map (mbar m) rs)) L L31 HF' (full_has_hl _)) as (os' & E' & LO' & A');
      [apply (no_nan_fin rh); reflexivity|apply (no_nan_fin rl); reflexivity|].
    rewrite !map_length in *. exists os. split; [exact E|]. rewrite E'. f_equal. apply eq_nth; [rewrite map_length; lia|].
    intros i x y X Y. rewrite nth_error_map in Y. destruct (nth_error os i) as [z|] eqn:Z; [|discriminate]. injection Y as <-.
    specialize (A i z Z). specialize (A' i x X). cbv zeta in A, A'.
    destruct (S i <? len)%nat eqn:T; [subst; reflexivity|].
    destruct A as (ku & kd & U & D & -> & M & N), A' as (ku' & kd' & U' & D' & -> & M' & N').
    rewrite (last_col rh) in M, M' by reflexivity. rewrite (last_col rl) in N, N' by reflexivity.
    assert (CH : forall len i, lastn len (firstn (S i) (map rh (map (mbar m) rs))) = map (mir m) (lastn len (firstn (S i) (map rl rs)))).
    { intros. unfold lastn. rewrite !firstn_map, !map_length, !skipn_map, !map_map. reflexivity. }
    assert (CL : forall len i, lastn len (firstn (S i) (map rl (map (mbar m) rs))) = map (mir m) (lastn len (firstn (S i) (map rh rs)))).
    { intros. unfold lastn. rewrite !firstn_map, !map_length, !skipn_map, !map_map. reflexivity. }
    rewrite CH in M'. rewrite CL in N'.
    pose proof (first_mir _ _ _ N M'). pose proof (first_mir' _ _ _ M N').
    unfold swap. cbn [fst snd]. replace ku' with kd by lia. replace kd' with ku by lia. reflexivity.
  Qed.
End Mirror.

(** Stoch reflects about 50: for any values, and highs and lows exchanged. *)
Definition mir3 (m : R) (x : option R * option R * option R) : option R * option R * option R :=
  (option_map (mir m) (fst (fst x)), option_map (mir m) (snd x), option_map (mir m) (snd (fst x))).
Theorem C103_stoch len (c : ctx xr) m xs : (1 <= len)%nat -> c_index c = 0%nat ->
  exists os, run_new (stoch_new len) stoch_step c (map lift3 xs) = Ok os /\
             run_new (stoch_new len) stoch_step c (map lift3 (map (mir3 m) xs)) = Ok (map (reflect 100) os).
Proof.
  intros L C.
  destruct (@C23_stoch xr Exact len c (map lift3 xs) L) as (os & hs & ls & E & EH & EL & LO & P).
  destruct (@C23_stoch xr Exact len c (map lift3 (map (mir3 m) xs)) L) as (os' & hs' & ls' & E' & EH' & EL' & LO' & P').
  rewrite !map_length in *.
  assert (HH : map h_of (map lift3 xs) = lift (map (fun x => snd (fst x)) xs)) by (unfold lift; rewrite !map_map; reflexivity).
  assert (LL : map l_of (map lift3 xs) = lift (map snd xs)) by (unfold lift; rewrite !map_map; reflexivity).
  assert (HH' : map h_of (map lift3 (map (mir3 m) xs)) = lift (mmap m (map snd xs))) by (unfold lift, mmap; rewrite !map_map; reflexivity).
  assert (LL' : map l_of (map lift3 (map (mir3 m) xs)) = lift (mmap m (map (fun x => snd (fst x)) xs))) by (unfold lift, mmap; rewrite !map_map; reflexivity).
  rewrite HH in EH. rewrite LL in EL. rewrite HH' in EH'. rewrite LL' in EL'.
  destruct (C103_highest len c m (map snd xs) L C) as (ll & Q1 & Q2). rewrite Q1 in EL. rewrite Q2 in EH'. injection EL as <-. injection EH' as <-.
  destruct (C103_lowest len c m (map (fun x => snd (fst x)) xs) L C) as (hh & Q3 & Q4). rewrite Q3 in EH. rewrite Q4 in EL'. injection EH as <-. injection EL' as <-.
  exists os. split; [exact E|]. rewrite E'. f_equal.
  assert (NE : forall i, nth_error os' i = option_map (reflect 100) (nth_error os i)).
  { intros i. induction i as [i IH] using lt_wf_ind.
    destruct (nth_error xs i) as [x|] eqn:X.
    2:{ apply nth_error_None in X. rewrite (proj2 (nth_error_None os' i)), (proj2 (nth_error_None os i)) by lia. reflexivity. }
    pose proof (P i _ (map_nth_error lift3 _ _ X)) as A. pose proof (P' i _ (map_nth_error lift3 _ _ (map_nth_error (mir3 m) _ _ X))) as A'.
    rewrite A, A'. cbn [option_map]. f_equal. clear A A' P P'.
    unfold lift, mmap. rewrite !nth_error_map.
    destruct x as [[v h] l]. cbn [lift3 mir3 fst snd]. destruct v as [v|]; [|reflexivity]. cbn [option_map].
    destruct (nth_error hh i) as [[mx|]|]; cbn [option_map join]; try (destruct (nth_error ll i) as [[mn|]|]; reflexivity).
    destruct (nth_error ll i) as [[mn|]|]; cbn [option_map join]; try reflexivity.
    unfold mir. rewrite !fin_sub, !fin_Z, !fin_eq.
    destruct (Reqb_spec (m - mn - (m - mx)) 0) as [Q|Q], (Reqb_spec (mx - mn) 0) as [Q'|Q']; try (exfalso; lra).
    - unfold before. destruct i as [|j]; [reflexivity|]. rewrite (IH j) by lia. destruct (nth_error os j) as [[?|]|]; reflexivity.
    - rewrite !fin_mul, !fin_div by lra. cbn [reflect option_map]. rewrite fin_sub. do 2 f_equal. field. repeat split; lra. }
  apply eq_nth; [rewrite map_length; lia|]. intros i a b A B. rewrite nth_error_map in B. rewrite NE in A. congruence.
Qed.

(** ** Signals: reflected values and thresholds give the opposite signals *)
Lemma reflect_lt s v t : fltb (fsub (Fin s) v) (Fin (s - t)) = fltb (Fin t) v.
Proof. destruct v as [r| | |]; try reflexivity. rewrite fin_sub, !fin_lt. destruct (Rltb_spec (s - r) (s - t)), (Rltb_spec t r); try reflexivity; lra. Qed.
Lemma reflect_gt s v t : fltb (Fin (s - t)) (fsub (Fin s) v) = fltb v (Fin t).
Proof. destruct v as [r| | |]; try reflexivity. rewrite fin_sub, !fin_lt. destruct (Rltb_spec (s - t) (s - r)), (Rltb_spec r t); try reflexivity; lra. Qed.
Lemma reflect_le s v t : fleb (fsub (Fin s) v) (Fin (s - t)) = fleb (Fin t) v.
Proof. destruct v as [r| | |]; try reflexivity. rewrite fin_sub, !fin_le. destruct (Rleb_spec (s - r) (s - t)), (Rleb_spec t r); try reflexivity; lra. Qed.
Lemma reflect_ge s v t : fleb (Fin (s - t)) (fsub (Fin s) v) = fleb v (Fin t).
Proof. destruct v as [r| | |]; try reflexivity. rewrite fin_sub, !fin_le. destruct (Rleb_spec (s - t) (s - r)), (Rleb_spec r t); try reflexivity; lra. Qed.
Lemma reflected_above s t vs i : crosses_above (Fin (s - t)) (map (reflect s) vs) i <-> crosses_below (Fin t) vs i.
Proof.
  unfold crosses_above, crosses_below. split.
  - intros (j & v & p & -> & V & P & A & B). rewrite nth_error_map in V, P.
    destruct (nth_error vs (S j)) as [[v0|]|] eqn:EV; try discriminate. destruct (nth_error vs j) as [[p0|]|] eqn:EP; try discriminate.
    assert (v = fsub (Fin s) v0) by (cbn [option_map reflect] in V; congruence). assert (p = fsub (Fin s) p0) by (cbn [option_map reflect] in P; congruence). subst v p. rewrite reflect_gt in A. rewrite reflect_le in B.
    exists j, v0, p0. auto.
  - intros (j & v & p & -> & V & P & A & B). exists j, (fsub (Fin s) v), (fsub (Fin s) p). rewrite !nth_error_map, V, P. cbn [option_map reflect].
    rewrite reflect_gt, reflect_le. auto.
Qed.
Lemma reflected_below s t vs i : crosses_below (Fin (s - t)) (map (reflect s) vs) i <-> crosses_above (Fin t) vs i.
Proof.
  unfold crosses_above, crosses_below. split.
  - intros (j & v & p & -> & V & P & A & B). rewrite nth_error_map in V, P.
    destruct (nth_error vs (S j)) as [[v0|]|] eqn:EV; try discriminate. destruct (nth_error vs j) as [[p0|]|] eqn:EP; try discriminate.
    assert (v = fsub (Fin s) v0) by (cbn [option_map reflect] in V; congruence). assert (p = fsub (Fin s) p0) by (cbn [option_map reflect] in P; congruence). subst v p. rewrite reflect_lt in A. rewrite reflect_ge in B.
    exists j, v0, p0. auto.
  - intros (j & v & p & -> & V & P & A & B). exists j, (fsub (Fin s) v), (fsub (Fin s) p). rewrite !nth_error_map, V, P. cbn [option_map reflect].
    rewrite reflect_lt, reflect_ge. auto.
Qed.
Lemma never_both lo hi vs i : crosses_above (Fin lo) vs i -> ~ crosses_below (Fin hi) vs i.
Proof.
  intros (j & v & p & -> & V & P & A & B) (j' & v' & p' & E & V' & P' & A' & B'). injection E as <-.
  rewrite V in V'. rewrite P in P'. injection V' as <-. injection P' as <-.
  destruct v as [v| | |], p as [p| | |]; try discriminate.
  rewrite fin_lt in A, A'. rewrite fin_le in B, B'.
  destruct (Rltb_spec lo v), (Rleb_spec p lo), (Rltb_spec v hi), (Rleb_spec hi p); try discriminate; lra.
Qed.
(** Whatever the oscillator: values reflected in [s], with the thresholds
    reflected too (so that oversold and overbought change places), give the
    opposite signal at every bar. *)
Theorem C103_signals (c c' : ctx xr) s lo hi vs : exists sigs,
  run thr_step c (osc_strategy_new (Fin lo) (Fin hi)) vs = Ok sigs /\
  run thr_step c' (osc_strategy_new (Fin (s - hi)) (Fin (s - lo))) (map (reflect s) vs) = Ok (mirror sigs).
Proof.
  destruct (C49_oscillator_strategies c (Fin lo) (Fin hi) vs) as (os & E & LO & A).
  destruct (C49_oscillator_strategies c' (Fin (s - hi)) (Fin (s - lo)) (map (reflect s) vs)) as (os' & E' & LO' & A').
  exists os. split; [exact E|]. rewrite E'. f_equal. unfold mirror. rewrite map_length in LO'. apply eq_nth; [rewrite map_length; lia|].
  intros i x y X Y. rewrite nth_error_map in Y. destruct (nth_error os i) as [z|] eqn:Z; [|discriminate]. injection Y as <-.
  specialize (A i z Z). specialize (A' i x X). rewrite reflected_above, reflected_below in A'.
  destruct A as [AL AS], A' as [AL' AS'].
  destruct z as [[|]|]; cbn [option_map get_opposite].
  - assert (H : crosses_above (Fin lo) vs i) by (apply AL; reflexivity). apply AS'. split; [exact H|apply (never_both lo hi), H].
  - apply AL'. apply AS. reflexivity.
  - destruct x as [[|]|]; [| |reflexivity]; exfalso.
    + assert (H : crosses_below (Fin hi) vs i) by (apply AL'; reflexivity). assert (G : @None direction = Some Short); [|discriminate G].
      apply AS. split; [exact H|]. intros H'. exact (never_both lo hi _ _ H' H).
    + assert (H : crosses_above (Fin lo) vs i) by (apply AS'; reflexivity). assert (G : @None direction = Some Long); [|discriminate G].
      apply AL, H.
Qed.

(** ** Backtests: the same profits with long and short exchanged *)
Definition mirx (m : R) (v : xr) : xr := fsub (Fin m) v.
Definition mirror_provider (m : R) (d : provider xr) : provider xr :=
  let f := map (option_map (mirx m)) in
  mkProvider (f (p_open d)) (f (p_low d)) (f (p_high d)) (f (p_close d)) (p_volume d) (p_time d) (p_start d) (p_end d).
Definition mirror_ctx (m : R) (c : ctx xr) : ctx xr :=
  mkCtx (mirror_provider m (c_data c)) (c_first c) (c_last c) (c_bars c) (c_index c) (c_running c).
(** The other direction, the prices turned over, the same size and profit. *)
Definition opposite_trade (m : R) (t : trade xr) : trade xr :=
  mkTrade (get_opposite (t_dir t)) (t_closed t) (t_entry_tick t) (option_map (mirx m) (t_entry_price t))
    (t_exit_tick t) (option_map (mirx m) (t_exit_price t)) (t_fill t) (t_pnl t).
Definition opposite_results (m m' : smetrics xr) : Prop :=
  sm_net m' = sm_net m /\ sm_open m' = sm_open m /\ sm_gross_profit m' = sm_gross_profit m /\ sm_gross_loss m' = sm_gross_loss m /\
  sm_long_net m' = sm_short_net m /\ sm_short_net m' = sm_long_net m /\
  sm_closed m' = sm_closed m /\ sm_winning m' = sm_winning m /\ sm_losing m' = sm_losing m /\ sm_equity m' = sm_equity m.
Definition opp_pos (m : R) (p : position xr) : position xr :=
  Pos (get_opposite (pos_dir p)) (fst (pos_in p), mirx m (snd (pos_in p))) (pos_size p) (option_map (fun '(t, x) => (t, mirx m x)) (pos_out p)).
Lemma opp_closed m p : pos_closed (opp_pos m p) = pos_closed p.
Proof. unfold pos_closed. cbn. destruct (pos_out p) as [[t x]|]; reflexivity. Qed.
Lemma gain_opp m p x : fin_pos p -> finite x -> gain (opp_pos m p) (mirx m x) = gain p x.
Proof.
  intros ([e He] & [w Hz] & _) [r ->]. unfold gain, opp_pos. cbn [pos_in pos_size pos_dir snd]. rewrite He, Hz.
  destruct (pos_dir p); cbn; f_equal; ring.
Qed.
Lemma realised_opp m p : fin_pos p -> realised (opp_pos m p) = realised p.
Proof.
  intros H. unfold realised. cbn [opp_pos pos_out]. destruct (pos_out p) as [[t x]|] eqn:EO; cbn [option_map]; [|reflexivity].
  apply gain_opp; [exact H|]. destruct H as (_ & _ & H). rewrite EO in H. exact H.
Qed.
Lemma quote_mir m (cfg : sconfig xr) c n : priced c n -> forall k, (k < n)%nat ->
  quote (fills cfg (mirror_provider m (c_data c))) (c_index c + k) = mirx m (quote (fills cfg (c_data c)) (c_index c + k)).
Proof.
  intros P k K. destruct (P k K) as [[o O] [x X]]. unfold fills. destruct (sc_on_close cfg); cbn [mirror_provider p_close p_open];
    eapply quote_reprice; eassumption.
Qed.
Theorem C103_backtest (cfg : sconfig xr) m c sigs x s s' : sc_with_equity cfg = false ->
  finite (sc_capital cfg) -> real_prices c -> priced c (length (sigs ++ [x])) ->
  after cfg c (sigs ++ [x]) s -> after cfg (mirror_ctx m c) (mirror (sigs ++ [x])) s' ->
  s_trades s' = map (opposite_trade m) (s_trades s) /\ opposite_results (s_metrics s) (s_metrics s').
Proof.
  intros WE FC RP PR A A'. pose proof (after_tracks _ _ _ _ A) as T. pose proof (after_tracks _ _ _ _ A') as T'.
  set (xs := sigs ++ [x]) in *. assert (NE : xs <> []) by apply snoc_eq_nil.
  assert (NE' : mirror xs <> []) by (unfold mirror; destruct xs; [contradiction|discriminate]).
  assert (FP : Forall fin_pos (pos_at cfg (c_data c) (c_index c) xs)) by (apply fin_pos_at; assumption).
  assert (E : pos_at cfg (c_data (mirror_ctx m c)) (c_index (mirror_ctx m c)) (mirror xs) = map (opp_pos m) (pos_at cfg (c_data c) (c_index c) xs)).
  { unfold pos_at. cbn [mirror_ctx c_data c_index]. unfold mirror.
    rewrite (orders_sim cfg cfg (c_data c) (mirror_provider m (c_data c)) (c_index c) xs (mirx m) get_opposite eq_refl (quote_mir m cfg c _ PR)).
    destruct (book_sim cfg cfg (opp_pos m) (re_order (mirx m) get_opposite) fin_pos fin_order) with
      (os := orders cfg (c_data c) (c_index c) xs) as [EB _]; try reflexivity.
    - intros p; apply opp_closed.
    - intros p o. apply dir_eqb_opposite.
    - intros p [[t y] d] _ _. reflexivity.
    - intros ps [[t y] d] _ _. unfold enter, size_for. rewrite WE. reflexivity.
    - intros ps o. apply fin_enter. exact FC.
    - intros p o. apply fin_leave.
    - apply fin_orders, RP.
    - symmetry. exact EB. }
  assert (TT : s_trades s' = map (opposite_trade m) (s_trades s)).
  { rewrite (tr_trades _ _ _ _ _ T), (tr_trades _ _ _ _ _ T'), E, !map_map. apply (map_ext_Forall _ _ fin_pos); [|exact FP].
    intros p Hp. unfold as_trade, opposite_trade. rewrite opp_closed, realised_opp by exact Hp. cbn.
    f_equal; destruct (pos_out p) as [[t y]|]; reflexivity. }
  split; [exact TT|].
  pose proof (tr_equity _ _ _ _ _ T) as TE. pose proof (tr_equity _ _ _ _ _ T') as TE'.
  assert (TEX : forall (l : list (option direction)) (a b : xr), l <> [] -> match l with [] => a | _ => b end = b) by (intros [|] ? ? H; [contradiction|reflexivity]).
  rewrite TEX in TE by exact NE. rewrite TEX in TE' by exact NE'.
  destruct T as [_ _ _ TA _ _ OP]. destruct T' as [_ _ _ TA' _ _ OP'].
  specialize (OP NE). specialize (OP' NE'). rewrite E in *. set (ps := pos_at cfg (c_data c) (c_index c) xs) in *. destruct TA, TA'.
  assert (PF : profits (map (opp_pos m) ps) = profits ps).
  { unfold profits. rewrite filter_map, !map_map. rewrite (filter_ext _ pos_closed) by (intros p; apply opp_closed).
    apply (map_ext_Forall _ _ fin_pos); [intros p; apply realised_opp|]. apply Forall_filter, FP. }
  assert (SI : forall d, side d (map (opp_pos m) ps) = side (get_opposite d) ps).
  { intros d. unfold side. rewrite filter_map, !map_map.
    rewrite (filter_ext _ (fun p => pos_closed p && dir_eqb (pos_dir p) (get_opposite d))%bool).
    - apply (map_ext_Forall _ _ fin_pos); [intros p; apply realised_opp|]. apply Forall_filter, FP.
    - intros p. rewrite opp_closed. cbn [opp_pos pos_dir]. destruct (pos_dir p), d; reflexivity. }
  assert (OG : sm_open (s_metrics s') = sm_open (s_metrics s)).
  { rewrite OP, OP'. unfold mirror. rewrite map_length. unfold open_gain. rewrite newest_map.
    destruct (newest ps) as [p|] eqn:N; cbn [option_map]; [|reflexivity]. rewrite opp_closed. destruct (pos_closed p); [reflexivity|].
    cbn [mirror_ctx c_data c_index mirror_provider p_close].
    destruct (PR (length xs - 1)%nat) as [_ [y HY]]; [unfold xs; rewrite app_length; cbn [length]; lia|].
    assert (L : (c_index c + length xs - 1 = c_index c + (length xs - 1))%nat) by (unfold xs; rewrite app_length; cbn [length]; lia).
    rewrite L, (quote_reprice (mirx m) _ _ y HY). apply gain_opp; [|apply fin_quote, RP].
    rewrite Forall_forall in FP. apply FP. eapply nth_error_In; exact N. }
  unfold opposite_results. rewrite TE, TE', OG.
  rewrite ta_net0, ta_gp0, ta_gl0, ta_n0, ta_w0, ta_l0, ta_long0, ta_short0.
  rewrite ta_net, ta_gp, ta_gl, ta_n, ta_w, ta_l, ta_long, ta_short. rewrite PF, !SI. cbn [get_opposite]. repeat split; reflexivity.
Qed.
(** The two ways of turning a series over agree. *)
Lemma mirror_ctx_fresh m c rs : fresh_over c (map bar_of rs) -> fresh_over (mirror_ctx m c) (map bar_of (map (mbar m) rs)).
Proof.
  intros [(H1 & H2 & H3 & H4 & H5) Z]. split; [|exact Z]. unfold holds. cbn [mirror_ctx c_data mirror_provider p_open p_high p_low p_close p_volume].
  rewrite H1, H2, H3, H4, H5, !map_map. repeat split; apply map_ext; reflexivity.
Qed.
(** A whole strategy, from the bars to the profits: the RSI of the closes
    crossing [lo] from below or [100 - lo] from above (30 and 70 by default),
    with a fixed size.  Upside down it trades the other way at the same bars
    and makes exactly the same money. *)
Theorem C103_rsi_strategy len lo m (cfg : sconfig xr) c rs : (2 <= len)%nat -> rs <> [] ->
  sc_with_equity cfg = false -> finite (sc_capital cfg) -> fresh_over c (map bar_of rs) ->
  exists vals sigs s s',
    run_new (rsii_new (src_box SClose) len) rsii_step c (ticks (length rs)) = Ok vals /\
    run thr_step c (osc_strategy_new (Fin lo) (Fin (100 - lo))) vals = Ok sigs /\
    run_new (rsii_new (src_box SClose) len) rsii_step (mirror_ctx m c) (ticks (length rs)) = Ok (map (reflect 100) vals) /\
    run thr_step (mirror_ctx m c) (osc_strategy_new (Fin lo) (Fin (100 - lo))) (map (reflect 100) vals) = Ok (mirror sigs) /\
    after cfg c sigs s /\ after cfg (mirror_ctx m c) (mirror sigs) s' /\
    s_trades s' = map (opposite_trade m) (s_trades s) /\ opposite_results (s_metrics s) (s_metrics s').
Proof.
  intros L NE WE FC FO. pose proof (mirror_ctx_fresh m c rs FO) as FO'.
  assert (RR : forall c rs, fresh_over c (map bar_of rs) ->
    run_new (rsii_new (src_box SClose) len) rsii_step c (ticks (length rs)) = Ok (each_prefix (Rrsi len) (map rc rs))).
  { clear - L. intros c rs FO.
    pose proof (rsii_run len c _ _ L (close_feeds _ _ FO) ltac:(rewrite full_map; apply warmed_map_Some)) as R.
    unfold full in R at 1. rewrite !map_length in R. rewrite R. f_equal. clear R.
    generalize (map rc rs). intros xs. induction xs as [|x xs IH] using rev_ind; [reflexivity|].
    unfold full in *. rewrite map_app in *. cbn [map]. rewrite !each_prefix_snoc, IH. f_equal. f_equal.
    pose proof (rsi_full len (xs ++ [x]) L) as E. unfold full in E. rewrite map_app in E. exact E. }
  pose proof (RR _ _ FO) as R. pose proof (RR _ _ FO') as R'. rewrite map_length in R'.
  assert (EV : each_prefix (Rrsi len) (map rc (map (mbar m) rs)) = map (reflect 100) (each_prefix (Rrsi len) (map rc rs))).
  { replace (map rc (map (mbar m) rs)) with (map (mir m) (map rc rs)) by (rewrite !map_map; reflexivity).
    rewrite each_prefix_of_map, each_prefix_map. apply each_prefix_ext. intros p. apply Rrsi_mir. lia. }
  rewrite EV in R'. destruct (C103_signals c (mirror_ctx m c) 100 lo (100 - lo) (each_prefix (Rrsi len) (map rc rs))) as (sigs & E & E').
  replace (100 - (100 - lo)) with lo in E' by ring.
  assert (LS : length sigs = length rs).
  { apply run_length in E. rewrite length_each_prefix, map_length in E. exact E. }
  assert (PC : forall c rs, fresh_over c (map bar_of rs) -> priced c (length rs)).
  { clear. intros c rs [(H1 & H2 & H3 & H4 & H5) Z] k K. rewrite Z, H1, H4. cbn [Nat.add]. rewrite !nth_error_map.
    destruct (nth_error rs k) as [r|] eqn:N; [|apply nth_error_None in N; lia]. cbn. eauto. }
  destruct (C28_runs cfg c sigs) as [s A]; [rewrite LS; apply PC, FO|].
  destruct (C28_runs cfg (mirror_ctx m c) (mirror sigs)) as [s' A'].
  { unfold mirror. rewrite map_length, LS, <- (map_length (mbar m) rs). apply PC, FO'. }
  exists (each_prefix (Rrsi len) (map rc rs)), sigs, s, s'. do 6 (split; [assumption|]).
  destruct sigs as [|x sigs _] using rev_ind; [destruct rs; [contradiction|discriminate]|].
  apply (C103_backtest cfg m c sigs x s s' WE FC); try assumption.
  - destruct FO as [(H1 & H2 & H3 & H4 & H5) Z].
    split; rewrite ?H1, ?H4; intros v I; apply in_map_iff in I; destruct I as (b & EB & I); apply in_map_iff in I;
      destruct I as (r & <- & _); injection EB as <-; eexists; reflexivity.
  - rewrite LS. apply PC, FO.
Qed.

(** The hypotheses are met: a series of three bars and its mirror image. *)
Example C103_ex : exists (c : ctx xr) rs, length rs = 3%nat /\ fresh_over c (map bar_of rs) /\
  fresh_over (mirror_ctx 100 c) (map bar_of (map (mbar 100) rs)) /\ feeds c (src_box SClose) (full (map rc rs)) /\
  nth_error (map rh (map (mbar 100) rs)) 0%nat = Some (100 - 9) /\
  exists s, after (mkSConfig true true (Fin 1000) false) c [Some Long; None; Some Short] s.
Proof.
  set (rs := [mkRB 10 12 9 11 100; mkRB 11 15 10 14 50; mkRB 14 14 8 9 70]).
  destruct (ctx_over_fresh (map bar_of rs) ltac:(discriminate)) as (c & E & Fr & _).
  exists c, rs. split; [reflexivity|]. split; [exact Fr|]. split; [apply mirror_ctx_fresh, Fr|].
  split; [apply close_feeds, Fr|]. split; [reflexivity|].
  destruct (C28_runs (mkSConfig true true (Fin 1000) false) c [Some Long; None; Some Short]) as (s & A); [|exists s; exact A].
  destruct Fr as [(H1 & H2 & H3 & H4 & H5) Z]. intros k K. rewrite Z, H1, H4. cbn [Nat.add]. rewrite !nth_error_map.
  destruct (nth_error rs k) as [r|] eqn:N; [|apply nth_error_None in N; cbn in N, K; lia]. cbn. eauto.
Qed.
