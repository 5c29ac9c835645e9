(** * PExact3: windows of complete real-valued series. *)
From Verif Require Export PExact2 PContent3 SpecBar.
Local Open Scope R_scope.

(** ** element-wise combination *)
Lemma zip_each {X A B C} (f : A -> B -> C) (g : list X -> A) (h : list X -> B) xs :
  zip f (each_prefix g xs) (each_prefix h xs) = each_prefix (fun p => f (g p) (h p)) xs.
Proof.
  unfold zip, each_prefix. induction (prefixes xs) as [|p l IH]; [reflexivity|]. cbn. rewrite IH. reflexivity.
Qed.
Lemma combine_each {X A B} (g : list X -> A) (h : list X -> B) xs :
  combine (each_prefix g xs) (each_prefix h xs) = each_prefix (fun p => (g p, h p)) xs.
Proof. unfold each_prefix. induction (prefixes xs) as [|p l IH]; [reflexivity|]. cbn. rewrite IH. reflexivity. Qed.
Lemma zip3_each {X A B C D} (f : A -> B -> C -> D) (g : list X -> A) (h : list X -> B) (k : list X -> C) xs :
  zip3 f (each_prefix g xs) (each_prefix h xs) (each_prefix k xs) = each_prefix (fun p => f (g p) (h p) (k p)) xs.
Proof. unfold zip3. rewrite combine_each, zip_each. reflexivity. Qed.

(** ** windows *)
Lemma full_window_Some {A} n (l w : list A) : full_window n l = Some w -> w = lastn n l /\ length w = n /\ (n <= length l)%nat.
Proof.
  unfold full_window. destruct (Nat.leb_spec n (length l)); [|discriminate]. intros E. injection E as <-.
  rewrite length_lastn. split; [reflexivity|]. lia.
Qed.
Lemma full_window_map {A B} (g : A -> B) n l : full_window n (map g l) = option_map (map g) (full_window n l).
Proof.
  unfold full_window. rewrite map_length. destruct (n <=? length l)%nat; [|reflexivity]. cbn. f_equal.
  unfold lastn. rewrite map_length. apply skipn_map.
Qed.
Lemma all_some_map {A} (l : list A) : all_some (map Some l) = Some l.
Proof. induction l as [|x l IH]; [reflexivity|]. cbn. rewrite IH. reflexivity. Qed.
Lemma all_some_None {A} (l : list (option A)) : In None l -> all_some l = None.
Proof.
  induction l as [|[x|] l IH]; intros H; [destruct H| |reflexivity].
  cbn. destruct H as [H|H]; [discriminate|]. rewrite (IH H). reflexivity.
Qed.
Lemma lastn_app_r {A} n (l m : list A) : (n <= length m)%nat -> lastn n (l ++ m) = lastn n m.
Proof.
  intros H. unfold lastn. rewrite app_length, skipn_app, skipn_all2 by lia. cbn. f_equal. lia.
Qed.
Lemma win_warm {A} n k (l : list A) : (1 <= n)%nat -> window n (warm k l) = full_window n l.
Proof.
  intros N. unfold window, full_window, warm. rewrite app_length, repeat_length, map_length.
  destruct (Nat.leb_spec n (length l)) as [H|H].
  - destruct (Nat.leb_spec n (k + length l)); [|lia]. rewrite lastn_app_r by (rewrite map_length; exact H).
    replace (lastn n (map Some l)) with (map Some (lastn n l)); [apply all_some_map|].
    unfold lastn. rewrite map_length. symmetry. apply skipn_map.
  - destruct (Nat.leb_spec n (k + length l)) as [H'|]; [|reflexivity].
    apply all_some_None. unfold lastn. rewrite app_length, repeat_length, map_length.
    rewrite skipn_app, repeat_length. apply in_or_app. left.
    assert (P : (k - (k + length l - n) > 0)%nat) by lia.
    assert (E : skipn (k + length l - n) (repeat (@None A) k) = repeat None (k - (k + length l - n))).
    { generalize (k + length l - n)%nat. clear. intros m. revert k. induction m as [|m IH]; intros k; [rewrite Nat.sub_0_r; reflexivity|].
      destruct k as [|k]; [reflexivity|]. cbn. apply IH. }
    rewrite E. destruct (k - (k + length l - n))%nat; [lia|]. left. reflexivity.
Qed.
Lemma warm_lift k (vs : list R) : warm k (map Fin vs) = lift (warm k vs).
Proof. unfold warm, lift. rewrite map_app, !map_map. f_equal. induction k; [reflexivity|]. cbn. f_equal. exact IHk. Qed.
Lemma warm_nonnil {A} k (l : list A) : (1 <= k + length l)%nat -> warm k l <> [].
Proof. unfold warm. intros H E. apply (f_equal (@length _)) in E. rewrite app_length, repeat_length, map_length in E. cbn in E. lia. Qed.
Lemma sum_warm len k (vs : list R) : (1 <= len)%nat ->
  sum_out len (warm k (map Fin vs)) = option_map (fun w => Fin (Rsum w)) (full_window len vs).
Proof.
  intros L. destruct (Nat.eq_dec (k + length vs) 0) as [E|E].
  - destruct k, vs; cbn in E; try lia. unfold sum_out, window, full_window. cbn [warm repeat map app length].
    destruct (Nat.leb_spec len 0); [lia|reflexivity].
  - rewrite warm_lift, sum_exact, win_warm by (try apply warm_nonnil; lia).
    destruct (full_window len vs); reflexivity.
Qed.
Lemma sma_warm len k (vs : list R) : (1 <= len)%nat ->
  sma_out len (warm k (map Fin vs)) = option_map (fun w => Fin (Rmean w)) (full_window len vs).
Proof.
  intros L. destruct (Nat.eq_dec (k + length vs) 0) as [E|E].
  - destruct k, vs; cbn in E; try lia. unfold sma_out, window, full_window. cbn [warm repeat map app length].
    destruct (Nat.leb_spec len 0); [lia|]. destruct (len =? 1)%nat; reflexivity.
  - rewrite warm_lift, sma_exact, win_warm by (try apply warm_nonnil; lia).
    destruct (full_window len vs); reflexivity.
Qed.
Lemma swma_warm k (vs : list R) :
  swma_out 0 (warm k (map Fin vs)) = option_map (fun w => Fin (Rswmean w)) (full_window 4 vs).
Proof. rewrite warm_lift, swma_exact, win_warm by lia. destruct (full_window 4 vs); reflexivity. Qed.
(** extrema of a complete series. *)
Lemma hi_full len (vs : list R) : highest_out len 0 (full vs) = match full_window len vs with Some w => option_map Fin (Rmaximum w) | None => None end.
Proof.
  unfold highest_out, full_window. rewrite full_map, !map_length. cbn [Nat.add].
  destruct (len <=? length vs)%nat; [|reflexivity]. rewrite <- full_map, <- lift_full, lift_lastn, lift_present.
  replace (lastn len (map Some vs)) with (map Some (lastn len vs)).
  2:{ unfold lastn. rewrite map_length. symmetry. apply skipn_map. }
  assert (E : present (map Some (lastn len vs)) = lastn len vs) by (rewrite <- (app_nil_l (map Some _)); apply (present_warm 0)).
  rewrite E. apply fin_best_max.
Qed.
Lemma lo_full len (vs : list R) : lowest_out len 0 (full vs) = match full_window len vs with Some w => option_map Fin (Rminimum w) | None => None end.
Proof.
  unfold lowest_out, full_window. rewrite full_map, !map_length. cbn [Nat.add].
  destruct (len <=? length vs)%nat; [|reflexivity]. rewrite <- full_map, <- lift_full, lift_lastn, lift_present.
  replace (lastn len (map Some vs)) with (map Some (lastn len vs)).
  2:{ unfold lastn. rewrite map_length. symmetry. apply skipn_map. }
  assert (E : present (map Some (lastn len vs)) = lastn len vs) by (rewrite <- (app_nil_l (map Some _)); apply (present_warm 0)).
  rewrite E. apply fin_best_min.
Qed.
(** ** consecutive pairs *)
Lemma pairs_snoc {A} (l : list A) a b : pairs (l ++ [a; b]) = pairs (l ++ [a]) ++ [(a, b)].
Proof.
  induction l as [|x l IH]; [reflexivity|]. destruct l as [|y l]; [reflexivity|].
  cbn [app pairs] in *. f_equal. exact IH.
Qed.
Lemma pairs_length {A} (l : list A) : length (pairs l) = (length l - 1)%nat.
Proof. induction l as [|x l IH]; [reflexivity|]. destruct l as [|y l]; [reflexivity|]. cbn [pairs length] in *. rewrite IH. lia. Qed.
Lemma each_pairs {A B} (f : list A -> option B) (g : A -> A -> B) h : h <> [] ->
  (forall a, f [a] = None) -> (forall t a b, f (t ++ [a; b]) = Some (g a b)) ->
  each_prefix f h = warm 1 (map (fun p => g (fst p) (snd p)) (pairs h)).
Proof.
  intros N H1 H2. induction h as [|a h IH] using rev_ind; [congruence|]. clear N.
  destruct h as [|b h _] using rev_ind.
  - unfold each_prefix, prefixes. cbn. rewrite H1. reflexivity.
  - rewrite each_prefix_snoc, IH by (destruct h; discriminate).
    rewrite <- app_assoc. cbn [app]. rewrite H2, pairs_snoc, map_app. unfold warm. rewrite map_app, app_assoc. reflexivity.
Qed.
(** the true range series, with the first bar's range counted. *)
Definition Rtrs (h : list rbar5) : list R :=
  match h with [] => [] | r :: _ => (rh r - rl r) :: map (fun p => Rtr (fst p) (snd p)) (pairs h) end.
Lemma Rtrs_snoc h a b : Rtrs (h ++ [a; b]) = Rtrs (h ++ [a]) ++ [Rtr a b].
Proof.
  destruct h as [|r h]; [reflexivity|]. cbn [app Rtrs]. change (r :: h ++ [a; b]) with ((r :: h) ++ [a; b]).
  rewrite pairs_snoc, map_app. reflexivity.
Qed.
Lemma Rtrs_length h : length (Rtrs h) = length h.
Proof. destruct h as [|r h]; [reflexivity|]. cbn [Rtrs length]. rewrite map_length, pairs_length. cbn. lia. Qed.
Lemma cur_bar {B} (k : bar xr -> option B) h r : cur k (map bar_of (h ++ [r])) = k (bar_of r).
Proof. rewrite map_app. apply cur_snoc. Qed.
Lemma prv_bar {B} (k : bar xr -> option B) h a b : prv k (map bar_of (h ++ [a; b])) = k (bar_of a).
Proof. rewrite map_app. change (map bar_of [a; b]) with ([bar_of a] ++ [bar_of b]). rewrite app_assoc, prv_snoc, cur_snoc. reflexivity. Qed.
Lemma cur_bar2 {B} (k : bar xr -> option B) h a b : cur k (map bar_of (h ++ [a; b])) = k (bar_of b).
Proof. change (h ++ [a; b]) with (h ++ [a] ++ [b]). rewrite app_assoc. apply cur_bar. Qed.
Lemma tr_bar na h a b : tr_out na (map bar_of (h ++ [a; b])) = Some (Fin (Rtr a b)).
Proof.
  unfold tr_out. rewrite !cur_bar2, !prv_bar. cbn [bar_of b_high b_low b_close]. unfold true_range.
  rewrite !fin_sub, !fin_abs, !fin_max. reflexivity.
Qed.
Lemma tr_series h : each_prefix (tr_out true) (map bar_of h) = full (Rtrs h).
Proof.
  induction h as [|a h IH] using rev_ind; [reflexivity|].
  rewrite map_app. cbn [map]. rewrite each_prefix_snoc, IH. destruct h as [|b h _] using rev_ind.
  - cbn. reflexivity.
  - change (map bar_of (h ++ [b]) ++ [bar_of a]) with (map bar_of (h ++ [b]) ++ map bar_of [a]).
    rewrite <- map_app, <- app_assoc. cbn [app]. rewrite tr_bar, Rtrs_snoc. unfold full. rewrite map_app. reflexivity.
Qed.
Lemma tr_series_false h : h <> [] -> each_prefix (tr_out false) (map bar_of h) = warm 1 (map Fin (map (fun p => Rtr (fst p) (snd p)) (pairs h))).
Proof.
  intros N. rewrite each_prefix_of_map.
  rewrite (each_pairs (fun p => tr_out false (map bar_of p)) (fun a b => Fin (Rtr a b)) h N).
  - rewrite map_map. reflexivity.
  - intros a. reflexivity.
  - intros t a b. apply tr_bar.
Qed.
Lemma present_full vs : present (full vs) = map Fin vs.
Proof. rewrite full_map. apply (present_warm 0). Qed.
Lemma atr1_series h : each_prefix (atr_out 1) (map bar_of h) = full (Rtrs h).
Proof.
  induction h as [|a h IH] using rev_ind; [reflexivity|].
  rewrite map_app. cbn [map]. rewrite each_prefix_snoc, IH.
  change (map bar_of h ++ [bar_of a]) with (map bar_of h ++ map bar_of [a]). rewrite <- map_app.
  assert (E : atr_out 1 (map bar_of (h ++ [a])) = newest (map Fin (Rtrs (h ++ [a])))).
  { unfold atr_out, ema_out, ema_val. rewrite tr_series, present_full. reflexivity. }
  rewrite E. destruct h as [|b h _] using rev_ind; [reflexivity|].
  rewrite <- app_assoc. cbn [app]. rewrite Rtrs_snoc, map_app. cbn [map]. rewrite newest_snoc. unfold full. rewrite map_app. reflexivity.
Qed.
Lemma atr_bar len h : (1 <= len)%nat -> atr_out len (map bar_of h) = option_map Fin (Rsmooth (1 / INR len) len (Rtrs h)).
Proof. intros L. unfold atr_out, ema_out. rewrite tr_series, present_full. apply rma_exact. exact L. Qed.
(** price columns. *)
Lemma col_full (k : bar xr -> option xr) (g : rbar5 -> R) h : (forall r, k (bar_of r) = Some (Fin (g r))) ->
  map k (map bar_of h) = full (map g h).
Proof. intros H. unfold full. rewrite !map_map. apply map_ext. exact H. Qed.
Lemma full_has_hlc rs : Forall has_hlc (map bar_of rs).
Proof. apply Forall_forall. intros b H. apply in_map_iff in H. destruct H as (r & <- & _). repeat split; discriminate. Qed.
Lemma full_has_hl rs : Forall has_hl (map bar_of rs).
Proof. apply Forall_hlc_hl, full_has_hlc. Qed.
Lemma Rtr_range p r : rl r <= rh r -> 0 <= rh r - rl r <= Rtr p r.
Proof. intros H. unfold Rtr. split; [lra|]. eapply Rle_trans; [|apply Rmax_l]. apply Rmax_l. Qed.
Lemma Rtr_nonneg p r : 0 <= Rtr p r.
Proof. unfold Rtr. apply Rle_trans with (Rabs (rl r - rc p)); [apply Rabs_pos|apply Rmax_r]. Qed.
Lemma full_warm vs : full vs = warm 0 (map Fin vs).
Proof. apply full_map. Qed.
Lemma with_prev_bar_each {A B} (f : A -> A -> option B) g h :
  (forall a, g [a] = None) -> (forall t a b, g (t ++ [a; b]) = f a b) ->
  with_prev_bar f h = each_prefix g h.
Proof.
  intros H1 H2. destruct h as [|a h _] using rev_ind; [reflexivity|].
  induction h as [|b h IH] using rev_ind in a |- *.
  - unfold each_prefix, prefixes. cbn. rewrite H1. reflexivity.
  - rewrite each_prefix_snoc, <- IH. rewrite <- app_assoc. cbn [app]. rewrite H2.
    unfold with_prev_bar. destruct (h ++ [b; a]) as [|x l] eqn:E1; [destruct h; discriminate|]. rewrite <- E1.
    destruct (h ++ [b]) as [|y m] eqn:E2; [destruct h; discriminate|]. rewrite <- E2.
    rewrite pairs_snoc, map_app. reflexivity.
Qed.
Lemma each_prefix_newest {A} (xs : list (option A)) : each_prefix (fun h => join (newest h)) xs = xs.
Proof.
  rewrite <- (map_id xs) at 2. rewrite <- (each_prefix_cur (fun x => x) xs). apply each_prefix_ext. intros p. unfold cur. destruct (newest p); reflexivity.
Qed.
Lemma zip3_self {A B C D} (f : option A -> B -> C -> D) g h xs :
  zip3 f xs (each_prefix g xs) (each_prefix h xs) = each_prefix (fun p => f (join (newest p)) (g p) (h p)) xs.
Proof. rewrite <- zip3_each, each_prefix_newest. reflexivity. Qed.
