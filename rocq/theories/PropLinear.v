(** * PropLinear (C131): averages superpose, and a revised price moves them by a
    known amount. In exact arithmetic. *)
From Coq Require Import Reals Lra Lia Psatz.
From Verif Require Import PTa4 PExact3 Inst PropTa1 PropTa2 PropTa3 SpecBar PropContent4 PropScale.
Local Open Scope R_scope.

(** Two series side by side (a bar missing in one is missing in the other). *)
Definition firsts (zs : list (option (R * R))) : list (option R) := map (option_map fst) zs.
Definition seconds (zs : list (option (R * R))) : list (option R) := map (option_map snd) zs.
(** [a] units of the first and [b] units of the second. *)
Definition blend (a b : R) (zs : list (option (R * R))) : list (option R) := map (option_map (fun p => a * fst p + b * snd p)) zs.

(** The average of a blend is the blend of the averages. *)
Definition superposes {S} (new : res S) (step : ctx xr -> S -> option xr -> res (S * option xr)) : Prop :=
  forall (c : ctx xr) a b zs, c_index c = 0%nat ->
  exists os, run_new new step c (lift (firsts zs)) = Ok (lift (firsts os)) /\
             run_new new step c (lift (seconds zs)) = Ok (lift (seconds os)) /\
             run_new new step c (lift (blend a b zs)) = Ok (lift (blend a b os)).
(** The same for gap-free data after any warm-up. *)
Definition superposes_full {S} (new : res S) (step : ctx xr -> S -> option xr -> res (S * option xr)) : Prop :=
  forall (c : ctx xr) a b n (ps : list (R * R)),
  exists os, run_new new step c (repeat None n ++ full (map fst ps)) = Ok (lift (firsts os)) /\
             run_new new step c (repeat None n ++ full (map snd ps)) = Ok (lift (seconds os)) /\
             run_new new step c (repeat None n ++ full (map (fun p => a * fst p + b * snd p) ps)) = Ok (lift (blend a b os)).

Lemma omap_window {A B} (g : A -> B) n h : window n (map (option_map g) h) = option_map (map g) (window n h).
Proof.
  unfold window, lastn. rewrite map_length, skipn_map. destruct (n <=? length h)%nat; [|reflexivity].
  generalize (skipn (length h - n) h). intros l. induction l as [|[x|] l IH]; cbn; [reflexivity| |reflexivity]. rewrite IH. destruct (all_some l); reflexivity.
Qed.
(** [m] is linear on lists of length [n]. *)
Definition linear (n : nat) (m : list R -> R) : Prop := forall a b (w : list (R * R)), length w = n ->
  m (map (fun p => a * fst p + b * snd p) w) = a * m (map fst w) + b * m (map snd w).
Lemma superposes_intro {S} (new : res S) step n (m : list R -> R) : linear n m ->
  (forall c xs, c_index c = 0%nat -> run_new new step c (lift xs) = Ok (lift (each_prefix (fun h => option_map m (window n h)) xs))) ->
  superposes new step.
Proof.
  intros LM E c a b zs Z. exists (each_prefix (fun h => option_map (fun w => (m (map fst w), m (map snd w))) (window n h)) zs).
  rewrite !E by exact Z. unfold firsts, seconds, blend. rewrite !each_prefix_of_map, !each_prefix_map.
  repeat split; do 2 f_equal; apply each_prefix_ext; intros p; rewrite omap_window; destruct (window n p) as [w|] eqn:W; try reflexivity.
  cbn. f_equal. apply LM. apply window_length in W. exact W.
Qed.
Lemma Rsum_linear a b (w : list (R * R)) : Rsum (map (fun p => a * fst p + b * snd p) w) = a * Rsum (map fst w) + b * Rsum (map snd w).
Proof. induction w as [|p w IH]; cbn; [ring|]. rewrite IH. ring. Qed.
Lemma Rmean_linear a b (w : list (R * R)) : Rmean (map (fun p => a * fst p + b * snd p) w) = a * Rmean (map fst w) + b * Rmean (map snd w).
Proof. unfold Rmean. rewrite Rsum_linear, !map_length. unfold Rdiv. ring. Qed.
Lemma Rweighted_linear a b (w : list (R * R)) : forall k, Rweighted k (map (fun p => a * fst p + b * snd p) w) = a * Rweighted k (map fst w) + b * Rweighted k (map snd w).
Proof. induction w as [|p w IH]; intros k; cbn [map Rweighted]; [ring|]. rewrite IH. ring. Qed.
Lemma Rsmooth_linear alpha len a b (w : list (R * R)) : Rsmooth alpha len (map (fun p => a * fst p + b * snd p) w) =
  match Rsmooth alpha len (map fst w), Rsmooth alpha len (map snd w) with Some u, Some v => Some (a * u + b * v) | _, _ => None end.
Proof.
  unfold Rsmooth. rewrite !map_length. destruct (length w <? len)%nat; [reflexivity|]. f_equal.
  rewrite !firstn_map, !skipn_map, Rmean_linear. generalize (Rmean (map fst (firstn len w))), (Rmean (map snd (firstn len w))).
  induction (skipn len w) as [|p t IH]; intros u v; [reflexivity|]. cbn [map fold_left]. rewrite <- IH. f_equal. ring.
Qed.
Theorem C131_sum len : (1 <= len)%nat -> superposes (sum_new len) sum_step.
Proof. intros L. apply (superposes_intro _ _ len Rsum); [intros a b w _; apply Rsum_linear|]. intros c xs _. apply sum_run_exact, L. Qed.
Theorem C131_sma len : (1 <= len)%nat -> superposes (sma_new len) sma_step.
Proof. intros L. apply (superposes_intro _ _ len Rmean); [intros a b w _; apply Rmean_linear|]. intros c xs _. apply sma_run_exact, L. Qed.
Theorem C131_wma len : (1 <= len)%nat -> superposes (wma_new len) wma_step.
Proof.
  intros L. apply (superposes_intro _ _ len Rwmean); [|intros c xs Z; apply wma_run_exact; assumption].
  intros a b w _. unfold Rwmean. rewrite Rweighted_linear, !map_length. unfold Rdiv. ring.
Qed.
Theorem C131_swma : superposes swma_new swma_step.
Proof.
  apply (superposes_intro _ _ 4 Rswmean); [|intros c xs Z; apply swma_run_exact; assumption].
  intros a b w LW. destruct w as [|p [|q [|r [|s [|t w]]]]]; try discriminate. cbn. field.
Qed.
Lemma smooth_superposes {S} (new : res S) step alpha len :
  (forall c n vs, run_new new step c (repeat None n ++ full vs) = Ok (repeat None n ++ lift (each_prefix (Rsmooth alpha len) vs))) ->
  superposes_full new step.
Proof.
  intros E c a b n ps.
  exists (repeat None n ++ each_prefix (fun w => match Rsmooth alpha len (map fst w), Rsmooth alpha len (map snd w) with Some u, Some v => Some (u, v) | _, _ => None end) ps).
  assert (D : forall w : list (R * R), is_some (Rsmooth alpha len (map fst w)) = is_some (Rsmooth alpha len (map snd w))) by (intros w; unfold Rsmooth; rewrite !map_length; destruct (length w <? len)%nat; reflexivity).
  assert (RN : forall {A B} (f : A -> B) l, map (option_map f) (repeat None n ++ l) = repeat None n ++ map (option_map f) l) by (intros A B f l; rewrite map_app; f_equal; induction n; cbn; congruence).
  rewrite !E, !lift_nones. unfold firsts, seconds, blend. rewrite !RN, !each_prefix_of_map, !each_prefix_map.
  repeat split; do 3 f_equal; apply each_prefix_ext; intros p; specialize (D p); rewrite ?Rsmooth_linear;
    destruct (Rsmooth alpha len (map fst p)), (Rsmooth alpha len (map snd p)); try discriminate; reflexivity.
Qed.
Theorem C131_ema len : (1 <= len)%nat -> superposes_full (ema_new len) ema_step.
Proof. intros L. eapply smooth_superposes. intros. apply C11_ema_closed_form, L. Qed.
Theorem C131_rma len : (1 <= len)%nat -> superposes_full (rma_new len) rma_step.
Proof. intros L. eapply smooth_superposes. intros. apply C12_rma_closed_form, L. Qed.

(** ** One revised price. *)
(** Two runs over [n] bars that differ at bar [i] by [d]: every value of the
    second is that of the first, moved by [effect j] at bar [j]. *)
Definition moved_by (effect : nat -> R) (r r' : res (list (option xr))) : Prop :=
  exists os os', r = Ok (lift os) /\ r' = Ok (lift os') /\ length os = length os' /\
    forall j o, nth_error os j = Some o -> nth_error os' j = Some (option_map (fun v => v + effect j) o).
(** The revised price in a series of zeros. *)
Definition spike i m (d : R) : list R := repeat 0 i ++ d :: repeat 0 m.
Lemma firstn_zeros (x : R) n m : firstn n (repeat x m) = repeat x (Nat.min n m).
Proof. revert m. induction n; intros [|m]; cbn; try reflexivity. f_equal. apply IHn. Qed.
Lemma skipn_zeros (x : R) n m : skipn n (repeat x m) = repeat x (m - n).
Proof. revert m. induction n; intros [|m]; cbn; try reflexivity. apply IHn. Qed.
Lemma spike_prefix i m d j : (j < i + 1 + m)%nat -> firstn (S j) (spike i m d) = if (j <? i)%nat then repeat 0 (S j) else spike i (j - i) d.
Proof.
  intros H. unfold spike. rewrite firstn_app, repeat_length, firstn_zeros. destruct (Nat.ltb_spec j i).
  - replace (S j - i)%nat with 0%nat by lia. rewrite firstn_O, app_nil_r. f_equal. lia.
  - rewrite Nat.min_r by lia. f_equal. replace (S j - i)%nat with (S (j - i)) by lia. cbn [firstn]. rewrite firstn_zeros, Nat.min_l by lia. reflexivity.
Qed.
Lemma spike_length i m d : length (spike i m d) = (i + 1 + m)%nat.
Proof. unfold spike. rewrite app_length. cbn [length]. rewrite !repeat_length. lia. Qed.
Lemma skipn_spike i m d n : skipn n (spike i m d) = if (n <=? i)%nat then spike (i - n) m d else repeat 0 (i + 1 + m - n).
Proof.
  unfold spike. rewrite skipn_app, repeat_length, skipn_zeros. destruct (Nat.leb_spec n i).
  - replace (n - i)%nat with 0%nat by lia. reflexivity.
  - replace (i - n)%nat with 0%nat by lia. cbn [repeat app]. replace (n - i)%nat with (S (n - i - 1)) by lia. cbn [skipn]. rewrite skipn_zeros. f_equal. lia.
Qed.
Lemma Rsum_zeros n : Rsum (repeat 0 n) = 0.
Proof. induction n; cbn; [reflexivity|]. rewrite IHn. ring. Qed.
Lemma Rsum_spike i m d : Rsum (spike i m d) = d.
Proof. unfold spike. rewrite Rsum_app. cbn [Rsum]. rewrite !Rsum_zeros. ring. Qed.
Lemma Rweighted_zeros n : forall k, Rweighted k (repeat 0 n) = 0.
Proof. induction n; intros k; cbn [repeat Rweighted]; [reflexivity|]. rewrite IHn. ring. Qed.
Lemma Rweighted_spike i m d : forall k, Rweighted k (spike i m d) = INR (k + i) * d.
Proof.
  unfold spike. induction i; intros k; cbn [repeat app Rweighted].
  - rewrite Rweighted_zeros, Nat.add_0_r. ring.
  - rewrite IHi, Nat.add_succ_r, Nat.add_succ_l. ring.
Qed.
(** [xs] and [xs] with [d] more at one bar. *)
Definition beside (v1 : list R) (x : R) (v2 : list R) (d : R) : list (R * R) := combine (v1 ++ x :: v2) (spike (length v1) (length v2) d).
Lemma beside_fst v1 x v2 d : map fst (beside v1 x v2 d) = v1 ++ x :: v2.
Proof.
  unfold beside. assert (L : length (v1 ++ x :: v2) = length (spike (length v1) (length v2) d)) by (rewrite spike_length, app_length; cbn [length]; lia).
  revert L. generalize (v1 ++ x :: v2), (spike (length v1) (length v2) d). induction l; intros [|y k] E; cbn in *; try lia; f_equal; auto.
Qed.
Lemma beside_snd v1 x v2 d : map snd (beside v1 x v2 d) = spike (length v1) (length v2) d.
Proof.
  unfold beside. assert (L : length (v1 ++ x :: v2) = length (spike (length v1) (length v2) d)) by (rewrite spike_length, app_length; cbn [length]; lia).
  revert L. generalize (v1 ++ x :: v2), (spike (length v1) (length v2) d). induction l; intros [|y k] E; cbn in *; try lia; f_equal; auto.
Qed.
Lemma beside_sum v1 x v2 d : map (fun p => 1 * fst p + 1 * snd p) (beside v1 x v2 d) = v1 ++ (x + d) :: v2.
Proof.
  unfold beside, spike. induction v1 as [|y v1 IH]; cbn; [|rewrite IH; f_equal; ring]. f_equal; [ring|].
  induction v2 as [|y v2 IH]; cbn; [reflexivity|]. rewrite IH. f_equal. ring.
Qed.
(** The [n] last values of the spike at bar [j]. *)
Lemma spike_window n i m d j : (j < i + 1 + m)%nat -> (n <= S j)%nat ->
  lastn n (firstn (S j) (spike i m d)) =
  if (i <=? j)%nat && (j <? i + n)%nat then spike (i + n - S j) (j - i) d else repeat 0 n.
Proof.
  intros H L. rewrite spike_prefix by exact H. unfold lastn. destruct (Nat.ltb_spec j i).
  - rewrite repeat_length, skipn_zeros. destruct (Nat.leb_spec i j); [lia|]. cbn [andb]. f_equal. lia.
  - rewrite spike_length, skipn_spike. destruct (Nat.leb_spec i j); [|lia]. cbn [andb].
    destruct (Nat.leb_spec (i + 1 + (j - i) - n) i), (Nat.ltb_spec j (i + n)); try lia; [f_equal; lia|].
    f_equal. lia.
Qed.
Lemma moved_gen (f : list R -> option R) (effect : nat -> R) (A B : list R) : length A = length B ->
  (forall j, (j < length A)%nat -> f (firstn (S j) B) = option_map (fun v => v + effect j) (f (firstn (S j) A))) ->
  moved_by effect (Ok (lift (each_prefix f A))) (Ok (lift (each_prefix f B))).
Proof.
  intros L E. exists (each_prefix f A), (each_prefix f B). split; [reflexivity|]. split; [reflexivity|]. split; [rewrite !length_each_prefix; exact L|].
  intros j o N. assert (J : (j < length A)%nat) by (rewrite <- (length_each_prefix f A); apply nth_error_Some; congruence).
  rewrite nth_error_each_prefix in N by exact J. rewrite nth_error_each_prefix by lia. injection N as <-. rewrite E by exact J. reflexivity.
Qed.
Lemma lastn_over {A B} (g : A -> B) n l : lastn n (map g l) = map g (lastn n l).
Proof. unfold lastn. rewrite map_length, skipn_map. reflexivity. Qed.
Lemma full_window_map {A B} (g : A -> B) n l : full_window n (map g l) = option_map (map g) (full_window n l).
Proof. unfold full_window, lastn. rewrite map_length, skipn_map. destruct (n <=? length l)%nat; reflexivity. Qed.
Lemma moved_window n (m : list R -> R) v1 x v2 d (effect : nat -> R) : linear n m ->
  (forall j, (j < length v1 + 1 + length v2)%nat -> (n <= S j)%nat -> m (lastn n (firstn (S j) (spike (length v1) (length v2) d))) = effect j) ->
  moved_by effect (Ok (lift (each_prefix (fun h => option_map m (window n h)) (map Some (v1 ++ x :: v2)))))
                  (Ok (lift (each_prefix (fun h => option_map m (window n h)) (map Some (v1 ++ (x + d) :: v2))))).
Proof.
  intros LM E. rewrite !each_prefix_of_map.
  rewrite (each_prefix_ext _ (fun p => option_map m (full_window n p))) by (intros; rewrite window_full; reflexivity).
  rewrite (each_prefix_ext _ (fun p => option_map m (full_window n p)) (v1 ++ (x + d) :: v2)) by (intros; rewrite window_full; reflexivity).
  apply moved_gen; [rewrite !app_length; reflexivity|]. intros j J. rewrite app_length in J. cbn [length] in J.
  rewrite <- (beside_sum v1 x v2 d), <- (beside_fst v1 x v2 d), !firstn_map, !full_window_map.
  destruct (full_window n (firstn (S j) (beside v1 x v2 d))) as [w|] eqn:W; [|reflexivity]. cbn [option_map]. f_equal.
  unfold full_window in W. destruct (Nat.leb_spec n (length (firstn (S j) (beside v1 x v2 d)))) as [K|K]; [|discriminate]. assert (W' : w = lastn n (firstn (S j) (beside v1 x v2 d))) by congruence. clear W. subst w.
  assert (LB : length (beside v1 x v2 d) = (length v1 + 1 + length v2)%nat) by (rewrite <- (map_length snd), beside_snd, spike_length; reflexivity).
  rewrite LM by (rewrite length_lastn; apply Nat.min_l; exact K). rewrite firstn_length in K.
  rewrite <- (E j) by lia. rewrite <- (beside_snd v1 x v2 d). rewrite firstn_map, lastn_over. ring.
Qed.
Lemma full_lift vs : full vs = lift (map Some vs).
Proof. unfold full, lift. rewrite map_map. reflexivity. Qed.

(** Revising the price of bar [length v1] from [x] to [x + d] moves ... *)
(** ... the sum by [d] while the bar is in the window, and by nothing else; *)
Theorem C131_sum_revised len (c : ctx xr) v1 x v2 d : (1 <= len)%nat ->
  moved_by (fun j => if (length v1 <=? j)%nat && (j <? length v1 + len)%nat then d else 0)
    (run_new (sum_new len) sum_step c (full (v1 ++ x :: v2))) (run_new (sum_new len) sum_step c (full (v1 ++ (x + d) :: v2))).
Proof.
  intros L. rewrite !full_lift, !C10_sum_total by exact L. apply moved_window; [intros a b w _; apply Rsum_linear|].
  intros j J K. rewrite spike_window by assumption. destruct (_ && _); [apply Rsum_spike|apply Rsum_zeros].
Qed.
(** ... the mean by [d / len]; *)
Theorem C131_sma_revised len (c : ctx xr) v1 x v2 d : (1 <= len)%nat ->
  moved_by (fun j => if (length v1 <=? j)%nat && (j <? length v1 + len)%nat then d / INR len else 0)
    (run_new (sma_new len) sma_step c (full (v1 ++ x :: v2))) (run_new (sma_new len) sma_step c (full (v1 ++ (x + d) :: v2))).
Proof.
  intros L. rewrite !full_lift, !C09_sma_mean by exact L. apply moved_window; [intros a b w _; apply Rmean_linear|].
  intros j J K. assert (LW := length_lastn len (firstn (S j) (spike (length v1) (length v2) d))). rewrite firstn_length, spike_length in LW.
  unfold Rmean. rewrite LW. replace (Nat.min len (Nat.min (S j) (length v1 + 1 + length v2))) with len by lia.
  rewrite spike_window by assumption. destruct (_ && _); [rewrite Rsum_spike; reflexivity|rewrite Rsum_zeros; unfold Rdiv; ring].
Qed.
(** ... the linearly weighted mean by the weight the bar has at its age; *)
Theorem C131_wma_revised len (c : ctx xr) v1 x v2 d : (1 <= len)%nat -> c_index c = 0%nat ->
  moved_by (fun j => if (length v1 <=? j)%nat && (j <? length v1 + len)%nat then INR (length v1 + len - j) * d / triangular len else 0)
    (run_new (wma_new len) wma_step c (full (v1 ++ x :: v2))) (run_new (wma_new len) wma_step c (full (v1 ++ (x + d) :: v2))).
Proof.
  intros L Z. rewrite !full_lift, !C14_wma by assumption. apply moved_window.
  { intros a b w _. unfold Rwmean. rewrite Rweighted_linear, !map_length. unfold Rdiv. ring. }
  intros j J K. assert (LW := length_lastn len (firstn (S j) (spike (length v1) (length v2) d))). rewrite firstn_length, spike_length in LW.
  unfold Rwmean. rewrite LW. replace (Nat.min len (Nat.min (S j) (length v1 + 1 + length v2))) with len by lia.
  rewrite spike_window by assumption. destruct (Nat.leb_spec (length v1) j), (Nat.ltb_spec j (length v1 + len)); cbn [andb]; try (rewrite Rweighted_zeros; unfold Rdiv; ring).
  rewrite Rweighted_spike. do 3 f_equal. lia.
Qed.
(** ... the exponential averages by [alpha * (1 - alpha)^k * d], [k] bars later,
    when the bar came after the first [len] ones, and, when it was one of the
    first [len], by [(1 - alpha)^k * d / len], [k] bars after the first value. *)
Definition smooth_effect (alpha : R) (len i : nat) (d : R) (j : nat) : R :=
  if (j <? i)%nat then 0
  else if (len <=? i)%nat then alpha * (1 - alpha) ^ (j - i) * d
  else (1 - alpha) ^ (j - (len - 1)) * (d / INR len).
Lemma decay alpha n : forall e, fold_left (fun e v => alpha * v + (1 - alpha) * e) (repeat 0 n) e = (1 - alpha) ^ n * e.
Proof. induction n; intros e; cbn [repeat fold_left pow]; [ring|]. rewrite IHn. ring. Qed.
Lemma smooth_spike alpha len i m d j : (1 <= len)%nat -> (j < i + 1 + m)%nat -> (len <= S j)%nat ->
  Rsmooth alpha len (firstn (S j) (spike i m d)) = Some (smooth_effect alpha len i d j).
Proof.
  intros L J K. unfold Rsmooth. rewrite firstn_length, spike_length. destruct (Nat.ltb_spec (Nat.min (S j) (i + 1 + m)) len); [lia|]. f_equal.
  rewrite spike_prefix by exact J. unfold smooth_effect. destruct (Nat.ltb_spec j i).
  - rewrite skipn_zeros, firstn_zeros, decay. unfold Rmean. rewrite Rsum_zeros. unfold Rdiv. ring.
  - rewrite skipn_spike. destruct (Nat.leb_spec len i) as [H1|H1].
    + unfold spike. rewrite fold_left_app. cbn [fold_left]. rewrite !decay.
      assert (Q : Rmean (firstn len (repeat 0 i ++ d :: repeat 0 (j - i))) = 0).
      { rewrite firstn_app, repeat_length. replace (len - i)%nat with 0%nat by lia. rewrite firstn_O, app_nil_r, firstn_zeros. unfold Rmean. rewrite Rsum_zeros. unfold Rdiv. ring. }
      rewrite Q. ring.
    + rewrite decay. replace (i + 1 + (j - i) - len)%nat with (j - (len - 1))%nat by lia. f_equal.
      assert (Q : firstn len (spike i (j - i) d) = spike i (len - 1 - i) d).
      { replace len with (S (len - 1)) at 1 by lia. rewrite spike_prefix by lia. destruct (Nat.ltb_spec (len - 1) i); [lia|reflexivity]. }
      rewrite Q. unfold Rmean. rewrite Rsum_spike, spike_length. do 2 f_equal. lia.
Qed.
Lemma smooth_revised {S} (new : res S) step alpha len : (1 <= len)%nat ->
  (forall c n vs, run_new new step c (repeat None n ++ full vs) = Ok (repeat None n ++ lift (each_prefix (Rsmooth alpha len) vs))) ->
  forall (c : ctx xr) v1 x v2 d, moved_by (smooth_effect alpha len (length v1) d) (run_new new step c (full (v1 ++ x :: v2))) (run_new new step c (full (v1 ++ (x + d) :: v2))).
Proof.
  intros L E c v1 x v2 d. pose proof (E c 0%nat) as E0. cbn [repeat app] in E0. rewrite !E0. apply moved_gen; [rewrite !app_length; reflexivity|].
  intros j J. rewrite app_length in J. cbn [length] in J. rewrite <- (beside_sum v1 x v2 d), <- (beside_fst v1 x v2 d), !firstn_map, Rsmooth_linear.
  rewrite <- !(firstn_map snd), beside_snd.
  destruct (Nat.leb_spec len (Datatypes.S j)) as [K|K].
  - rewrite smooth_spike by (try exact L; try exact K; lia). destruct (Rsmooth alpha len _); [|reflexivity]. cbn [option_map]. f_equal. ring.
  - unfold Rsmooth. rewrite map_length, !firstn_length. destruct (Nat.ltb_spec (Nat.min (Datatypes.S j) (length (beside v1 x v2 d))) len); [reflexivity|lia].
Qed.
Theorem C131_ema_revised len (c : ctx xr) v1 x v2 d : (1 <= len)%nat ->
  moved_by (smooth_effect (2 / (INR len + 1)) len (length v1) d) (run_new (ema_new len) ema_step c (full (v1 ++ x :: v2))) (run_new (ema_new len) ema_step c (full (v1 ++ (x + d) :: v2))).
Proof. intros L. apply smooth_revised; [exact L|]. intros. apply C11_ema_closed_form, L. Qed.
Theorem C131_rma_revised len (c : ctx xr) v1 x v2 d : (1 <= len)%nat ->
  moved_by (smooth_effect (1 / INR len) len (length v1) d) (run_new (rma_new len) rma_step c (full (v1 ++ x :: v2))) (run_new (rma_new len) rma_step c (full (v1 ++ (x + d) :: v2))).
Proof. intros L. apply smooth_revised; [exact L|]. intros. apply C12_rma_closed_form, L. Qed.

(** The same on f64 numbers, where these small sums and quotients are exact. *)
Example C131_ex :
  gives same_opt (run_new (ema_new 3) ema_step ctx6 (qs [1; 2; 3; 4; 8]%Z)) [None; None; Some (q 2); Some (q 3); Some (lit 11 2)] = true /\
  gives same_opt (run_new (ema_new 3) ema_step ctx6 (qs [1; 2; 3; 6; 8]%Z)) [None; None; Some (q 2); Some (q 4); Some (q 6)] = true /\
  gives same_opt (run_new (ema_new 3) ema_step ctx6 (qs [4; 2; 3; 4; 8]%Z)) [None; None; Some (q 3); Some (lit 7 2); Some (lit 23 4)] = true /\
  gives same_opt (run_new (sma_new 2) sma_step ctx6 (qs [1; 3; 5; 7]%Z)) [None; Some (q 2); Some (q 4); Some (q 6)] = true /\
  gives same_opt (run_new (sma_new 2) sma_step ctx6 (qs [1; 4; 5; 7]%Z)) [None; Some (lit 5 2); Some (lit 9 2); Some (q 6)] = true /\
  gives same_opt (run_new (wma_new 2) wma_step ctx6 (qs [1; 4; 7]%Z)) [None; Some (q 3); Some (q 6)] = true /\
  gives same_opt (run_new (wma_new 2) wma_step ctx6 (qs [1; 7; 7]%Z)) [None; Some (q 5); Some (q 7)] = true.
Proof. repeat split; vm_compute; reflexivity. Qed.
(** The effects those runs show: half of 2, then a quarter of 2; a third of 3,
    then halved twice. *)
Example C131_ex_effects :
  smooth_effect (2 / (INR 3 + 1)) 3 3 2 3 = 1 /\ smooth_effect (2 / (INR 3 + 1)) 3 3 2 4 = 1 / 2 /\
  smooth_effect (2 / (INR 3 + 1)) 3 0 3 2 = 1 /\ smooth_effect (2 / (INR 3 + 1)) 3 0 3 3 = 1 / 2 /\ smooth_effect (2 / (INR 3 + 1)) 3 0 3 4 = 1 / 4.
Proof. unfold smooth_effect. cbn. repeat split; field. Qed.
