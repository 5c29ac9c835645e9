(** * PropScale: C74 (invariance under scaling and shifting of prices). *)
From Verif Require Import PTa4 PExact3 Inst PropTa1 PropTa2 PropTa3 PropContent1 PropContent2 PropContent3 PropContent4 PropContent5.
Local Open Scope R_scope.

(** Every price [x] becomes [k * x + b]: a change of currency ([b = 0]), a
    shift ([k = 1]), or both. *)
Definition aff (k b x : R) : R := k * x + b.
Definition amap (k b : R) (xs : list (option R)) : list (option R) := map (option_map (aff k b)) xs.
(** The same for the four prices of a bar; the volume stays. *)
Definition abar (k b : R) (r : rbar5) : rbar5 :=
  mkRB (aff k b (ro r)) (aff k b (rh r)) (aff k b (rl r)) (aff k b (rc r)) (rv r).

(** ** Facts about the formulas *)
Section Facts.
  Variables k b : R.
  Hypothesis K : 0 < k.
  Notation A := (aff k b).

  Lemma aff_le x y : x <= y <-> A x <= A y.
  Proof. unfold aff. split; intros H; [nra|]. apply Rmult_le_reg_l with k; lra. Qed.
  Lemma aff_lt x y : x < y <-> A x < A y.
  Proof. unfold aff. split; intros H; [nra|]. apply Rmult_lt_reg_l with k; lra. Qed.
  Lemma aff_inj x y : A x = A y -> x = y.
  Proof. unfold aff. intros H. apply Rmult_eq_reg_l with k; lra. Qed.
  Lemma aff_max x y : Rmax (A x) (A y) = A (Rmax x y).
  Proof.
    unfold Rmax. destruct (Rle_dec (A x) (A y)) as [H|H], (Rle_dec x y) as [H'|H']; try reflexivity;
      exfalso; [apply H'; apply aff_le; exact H|apply H; apply (aff_le x y); exact H'].
  Qed.
  Lemma aff_min x y : Rmin (A x) (A y) = A (Rmin x y).
  Proof.
    unfold Rmin. destruct (Rle_dec (A x) (A y)) as [H|H], (Rle_dec x y) as [H'|H']; try reflexivity;
      exfalso; [apply H'; apply aff_le; exact H|apply H; apply (aff_le x y); exact H'].
  Qed.
  Lemma aff_sub x y : A x - A y = k * (x - y).
  Proof. unfold aff. ring. Qed.

  Lemma Rsum_aff l : Rsum (map A l) = k * Rsum l + INR (length l) * b.
  Proof.
    induction l as [|x l IH]; [cbn; ring|]. cbn [map Rsum length]. rewrite IH, S_INR. unfold aff. ring.
  Qed.
  Lemma Rmean_aff l : l <> [] -> Rmean (map A l) = A (Rmean l).
  Proof.
    intros N. unfold Rmean. rewrite Rsum_aff, map_length. unfold aff.
    assert (INR (length l) <> 0) by (destruct l; [congruence|apply not_0_INR; discriminate]). field. assumption.
  Qed.
  Lemma Rweighted_aff l : forall w, Rweighted w (map A l) =
    k * Rweighted w l + b * (INR w * INR (length l) + INR (length l) * (INR (length l) - 1) / 2).
  Proof.
    induction l as [|x l IH]; intros w; [cbn; field|]. cbn [map Rweighted length]. rewrite IH, !S_INR. unfold aff. field.
  Qed.
  Lemma Rwmean_aff l : l <> [] -> Rwmean (map A l) = A (Rwmean l).
  Proof.
    intros N. unfold Rwmean. rewrite Rweighted_aff, map_length.
    assert (P : 0 < triangular (length l)) by (apply triangle_pos; destruct l; [congruence|cbn; lia]).
    unfold triangular in *. unfold aff. cbn [INR]. field. split; intros Q; rewrite Q in P; lra.
  Qed.
  Lemma Rswmean_aff l : length l = 4%nat -> Rswmean (map A l) = A (Rswmean l).
  Proof.
    destruct l as [|x [|y [|z [|u [|v l]]]]]; cbn; try discriminate. intros _. unfold aff. field.
  Qed.
  Lemma Rsmooth_aff alpha len l : (1 <= len)%nat -> Rsmooth alpha len (map A l) = option_map A (Rsmooth alpha len l).
  Proof.
    intros L. unfold Rsmooth. rewrite map_length. destruct (Nat.ltb_spec (length l) len) as [H|H]; [reflexivity|].
    cbn [option_map]. f_equal. rewrite skipn_map, firstn_map, Rmean_aff.
    2: { destruct l; [cbn in H; lia|destruct len; [lia|discriminate]]. }
    generalize (Rmean (firstn len l)). induction (skipn len l) as [|x t IH]; intros m; [reflexivity|].
    cbn [map fold_left]. rewrite <- IH. f_equal. unfold aff. ring.
  Qed.
  Lemma Rmaxl_aff l : forall x, Rmaxl (A x) (map A l) = A (Rmaxl x l).
  Proof. induction l as [|y l IH]; intros x; [reflexivity|]. cbn [map Rmaxl]. rewrite aff_max. apply IH. Qed.
  Lemma Rminl_aff l : forall x, Rminl (A x) (map A l) = A (Rminl x l).
  Proof. induction l as [|y l IH]; intros x; [reflexivity|]. cbn [map Rminl]. rewrite aff_min. apply IH. Qed.
  Lemma Rmaximum_aff l : Rmaximum (map A l) = option_map A (Rmaximum l).
  Proof. destruct l; [reflexivity|]. cbn [map Rmaximum option_map]. rewrite Rmaxl_aff. reflexivity. Qed.
  Lemma Rminimum_aff l : Rminimum (map A l) = option_map A (Rminimum l).
  Proof. destruct l; [reflexivity|]. cbn [map Rminimum option_map]. rewrite Rminl_aff. reflexivity. Qed.
  Lemma diffs_aff l : diffs (map A l) = map (Rmult k) (diffs l).
  Proof.
    induction l as [|x [|y l] IH]; try reflexivity. cbn [map diffs] in *. rewrite IH. f_equal. apply aff_sub.
  Qed.
  Lemma mult_aff l : map (Rmult k) l = map (aff k 0) l.
  Proof. apply map_ext. intros. unfold aff. ring. Qed.
  Lemma max0_mult x : Rmax (k * x) 0 = k * Rmax x 0.
  Proof. unfold Rmax. destruct (Rle_dec (k * x) 0), (Rle_dec x 0); nra. Qed.
  Lemma Rgains_aff l : Rgains (map A l) = map (Rmult k) (Rgains l).
  Proof. unfold Rgains. rewrite diffs_aff, !map_map. apply map_ext. intros. apply max0_mult. Qed.
  Lemma Rlosses_aff l : Rlosses (map A l) = map (Rmult k) (Rlosses l).
  Proof.
    unfold Rlosses. rewrite diffs_aff, !map_map. apply map_ext. intros x. rewrite <- max0_mult. f_equal. ring.
  Qed.
  Lemma abs_mult x : Rabs (k * x) = k * Rabs x.
  Proof. rewrite Rabs_mult, (Rabs_pos_eq k) by lra. reflexivity. Qed.
  Lemma Rmad_aff l : l <> [] -> Rmad (map A l) = k * Rmad l.
  Proof.
    intros N. unfold Rmad. rewrite Rmean_aff by exact N. rewrite map_map.
    replace (map (fun x => Rabs (A x - A (Rmean l))) l) with (map (aff k 0) (map (fun x => Rabs (x - Rmean l)) l)).
    2: { rewrite map_map. apply map_ext. intros x. rewrite aff_sub, abs_mult. unfold aff. ring. }
    set (m := map (fun x => Rabs (x - Rmean l)) l).
    assert (Q : Rsum (map (aff k 0) m) = k * Rsum m).
    { clear. induction m as [|y m IH]; [cbn; ring|]. cbn [map Rsum]. rewrite IH. unfold aff. ring. }
    unfold Rmean. rewrite map_length, Q. unfold Rdiv. ring.
  Qed.
End Facts.

(** amap and the list operations. *)
Lemma amap_length k b h : length (amap k b h) = length h.
Proof. apply map_length. Qed.
Lemma amap_lastn k b n h : lastn n (amap k b h) = amap k b (lastn n h).
Proof. unfold lastn, amap. rewrite map_length. apply skipn_map. Qed.
Lemma amap_all_some k b h : all_some (amap k b h) = option_map (map (aff k b)) (all_some h).
Proof.
  unfold amap. induction h as [|[x|] h IH]; cbn; [reflexivity| |reflexivity]. rewrite IH. destruct (all_some h); reflexivity.
Qed.
Lemma amap_window k b n h : window n (amap k b h) = option_map (map (aff k b)) (window n h).
Proof. unfold window. rewrite amap_length, amap_lastn, amap_all_some. destruct (n <=? length h)%nat; reflexivity. Qed.
Lemma amap_present k b h : present (amap k b h) = map (aff k b) (present h).
Proof. unfold amap. induction h as [|[x|] h IH]; cbn; congruence. Qed.

(** ** Components that move with the prices *)
(** Whatever the inputs (gaps included), transforming them transforms the
    outputs in the same way. *)
Definition moves_with {S} (new : res S) (step : ctx xr -> S -> option xr -> res (S * option xr)) : Prop :=
  forall (c : ctx xr) k b xs, c_index c = 0%nat -> 0 < k ->
  exists os, run_new new step c (lift xs) = Ok (lift os) /\
             run_new new step c (lift (amap k b xs)) = Ok (lift (amap k b os)).

Lemma moves_intro {S} (new : res S) step (f : list (option R) -> option R) :
  (forall c xs, c_index c = 0%nat -> run_new new step c (lift xs) = Ok (lift (each_prefix f xs))) ->
  (forall k b h, 0 < k -> f (amap k b h) = option_map (aff k b) (f h)) -> moves_with new step.
Proof.
  intros R E c k b xs C K. exists (each_prefix f xs). split; [apply R, C|]. rewrite R by exact C.
  unfold amap at 1. rewrite each_prefix_of_map. unfold amap. rewrite each_prefix_map. do 2 f_equal.
  apply each_prefix_ext. intros p. apply E, K.
Qed.

Theorem C74_sma_moves len : (1 <= len)%nat -> moves_with (sma_new len) sma_step.
Proof.
  intros L. eapply moves_intro; [intros; apply sma_run_exact, L|]. intros k b h K. cbn beta. rewrite amap_window.
  destruct (window len h) as [w|] eqn:W; [|reflexivity]. cbn. f_equal. apply Rmean_aff.
  eapply window_nonnil; eassumption.
Qed.
Theorem C74_wma_moves len : (1 <= len)%nat -> moves_with (wma_new len) wma_step.
Proof.
  intros L. eapply moves_intro; [intros; apply wma_run_exact; assumption|]. intros k b h K. cbn beta. rewrite amap_window.
  destruct (window len h) as [w|] eqn:W; [|reflexivity]. cbn. f_equal. apply Rwmean_aff.
  eapply window_nonnil; eassumption.
Qed.
Theorem C74_swma_moves : moves_with swma_new swma_step.
Proof.
  eapply moves_intro; [intros; apply swma_run_exact; assumption|]. intros k b h K. cbn beta. rewrite amap_window.
  destruct (window 4 h) as [w|] eqn:W; [|reflexivity]. cbn. f_equal. apply Rswmean_aff.
  apply window_length in W. exact W.
Qed.
Lemma highest_run_lift len c xs : (1 <= len)%nat -> c_index c = 0%nat ->
  run_new (highest_new len) highest_step c (lift xs) =
  Ok (lift (each_prefix (fun h => if (len <=? length h)%nat then Rmaximum (present (lastn len h)) else None) xs)).
Proof.
  intros L C. rewrite (makes_run _ _ _ _ c (lift xs) (highest_makes len L) I), C. f_equal.
  apply lift_each_prefix. intros p _. rewrite hi_lift. destruct (len <=? length p)%nat; reflexivity.
Qed.
Lemma lowest_run_lift len c xs : (1 <= len)%nat -> c_index c = 0%nat ->
  run_new (lowest_new len) lowest_step c (lift xs) =
  Ok (lift (each_prefix (fun h => if (len <=? length h)%nat then Rminimum (present (lastn len h)) else None) xs)).
Proof.
  intros L C. rewrite (makes_run _ _ _ _ c (lift xs) (lowest_makes len L) I), C. f_equal.
  apply lift_each_prefix. intros p _. rewrite lo_lift. destruct (len <=? length p)%nat; reflexivity.
Qed.
Theorem C74_highest_moves len : (1 <= len)%nat -> moves_with (highest_new len) highest_step.
Proof.
  intros L. eapply moves_intro; [intros; apply highest_run_lift; assumption|]. intros k b h K. cbn beta.
  rewrite amap_length, amap_lastn, amap_present. destruct (len <=? length h)%nat; [|reflexivity]. apply Rmaximum_aff, K.
Qed.
Theorem C74_lowest_moves len : (1 <= len)%nat -> moves_with (lowest_new len) lowest_step.
Proof.
  intros L. eapply moves_intro; [intros; apply lowest_run_lift; assumption|]. intros k b h K. cbn beta.
  rewrite amap_length, amap_lastn, amap_present. destruct (len <=? length h)%nat; [|reflexivity]. apply Rminimum_aff, K.
Qed.

(** Ema and Rma: on gap-free inputs after any warm-up (elsewhere they panic). *)
Definition moves_with_full {S} (new : res S) (step : ctx xr -> S -> option xr -> res (S * option xr)) : Prop :=
  forall (c : ctx xr) k b n vs, 0 < k ->
  exists os, run_new new step c (repeat None n ++ full vs) = Ok (lift os) /\
             run_new new step c (repeat None n ++ full (map (aff k b) vs)) = Ok (lift (amap k b os)).
Lemma lift_nones n h : repeat None n ++ lift h = lift (repeat None n ++ h).
Proof. rewrite lift_app. f_equal. induction n as [|n IH]; [reflexivity|]. cbn [repeat]. rewrite IH. reflexivity. Qed.
Lemma amap_nones k b n h : amap k b (repeat None n ++ h) = repeat None n ++ amap k b h.
Proof. unfold amap. rewrite map_app. f_equal. induction n; cbn; congruence. Qed.
Lemma smooth_moves {S} (new : res S) step alpha len : (1 <= len)%nat ->
  (forall c n vs, run_new new step c (repeat None n ++ full vs) = Ok (repeat None n ++ lift (each_prefix (Rsmooth alpha len) vs))) ->
  moves_with_full new step.
Proof.
  intros L R c k b n vs K. exists (repeat None n ++ each_prefix (Rsmooth alpha len) vs).
  rewrite !R, !lift_nones. split; [reflexivity|]. rewrite amap_nones, each_prefix_of_map. unfold amap. rewrite each_prefix_map.
  do 3 f_equal. apply each_prefix_ext. intros p. apply Rsmooth_aff, L.
Qed.
Theorem C74_ema_moves len : (1 <= len)%nat -> moves_with_full (ema_new len) ema_step.
Proof. intros L. eapply smooth_moves; [exact L|]. intros. apply C11_ema_closed_form, L. Qed.
Theorem C74_rma_moves len : (1 <= len)%nat -> moves_with_full (rma_new len) rma_step.
Proof. intros L. eapply smooth_moves; [exact L|]. intros. apply C12_rma_closed_form, L. Qed.

(** Sum: scaled, and shifted once per value. *)
Theorem C74_sum len (c : ctx xr) k b xs : (1 <= len)%nat -> 0 < k ->
  exists os, run_new (sum_new len) sum_step c (lift xs) = Ok (lift os) /\
             run_new (sum_new len) sum_step c (lift (amap k b xs)) = Ok (lift (amap k (INR len * b) os)).
Proof.
  intros L K. eexists. split; [apply sum_run_exact, L|]. rewrite sum_run_exact by exact L.
  unfold amap at 1. rewrite each_prefix_of_map. unfold amap. rewrite each_prefix_map. do 2 f_equal.
  apply each_prefix_ext. intros p. change (map (option_map (aff k b)) p) with (amap k b p). rewrite amap_window.
  destruct (window len p) as [w|] eqn:W; [|reflexivity]. cbn. f_equal. rewrite Rsum_aff.
  apply window_length in W. rewrite W. reflexivity.
Qed.
(** Dev: scaled, and blind to shifts. *)
Theorem C74_dev len (c : ctx xr) k b xs : (2 <= len)%nat -> 0 < k ->
  exists os, run_new (dev_new len) dev_step c (lift xs) = Ok (lift os) /\
             run_new (dev_new len) dev_step c (lift (amap k b xs)) = Ok (lift (amap k 0 os)).
Proof.
  intros L K. eexists. split; [apply C20_dev, L|]. rewrite C20_dev by exact L.
  unfold amap at 1. rewrite each_prefix_of_map. unfold amap. rewrite each_prefix_map. do 2 f_equal.
  apply each_prefix_ext. intros p. change (map (option_map (aff k b)) p) with (amap k b p). rewrite amap_window.
  destruct (window len p) as [w|] eqn:W; [|reflexivity]. cbn. f_equal. rewrite Rmad_aff; [unfold aff; ring|exact K|].
  eapply window_nonnil; [|exact W]. lia.
Qed.

(** ** Components that do not see the transformation *)
Lemma Rrsi_of_mult k u d : 0 < k -> Rrsi_of (k * u) (k * d) = Rrsi_of u d.
Proof.
  intros K. unfold Rrsi_of.
  destruct (Req_EM_T (k * d) 0) as [H|H], (Req_EM_T d 0) as [H'|H'];
    try (exfalso; apply Rmult_integral in H; lra); try (exfalso; subst d; lra).
  - destruct (Req_EM_T (k * u) 0) as [G|G], (Req_EM_T u 0) as [G'|G']; try reflexivity;
      exfalso; [apply Rmult_integral in G; lra|subst u; lra].
  - do 4 f_equal. field. split; [exact H'|lra].
Qed.
Lemma Rrsi_aff len k b vs : (1 <= len)%nat -> 0 < k -> Rrsi len (map (aff k b) vs) = Rrsi len vs.
Proof.
  intros L K. unfold Rrsi. rewrite Rgains_aff, Rlosses_aff, !(mult_aff k), !Rsmooth_aff by assumption.
  destruct (Rsmooth _ _ (Rgains vs)) as [u|], (Rsmooth _ _ (Rlosses vs)) as [d|]; try reflexivity.
  cbn [option_map]. f_equal. unfold aff. rewrite !Rplus_0_r. apply Rrsi_of_mult, K.
Qed.
Theorem C74_rsi_invariant len (c : ctx xr) k b n vs : (2 <= len)%nat -> 0 < k ->
  exists os, run_new (rsi_new len) rsi_step c (repeat None n ++ full vs) = Ok os /\
             run_new (rsi_new len) rsi_step c (repeat None n ++ full (map (aff k b) vs)) = Ok os.
Proof.
  intros L K. rewrite !C22_rsi_formula by exact L. eexists; split; [reflexivity|].
  do 2 f_equal. rewrite each_prefix_of_map. apply each_prefix_ext. intros p. apply Rrsi_aff; [lia|exact K].
Qed.

Lemma eq_nth {T} (l l' : list T) : length l = length l' ->
  (forall i a b, nth_error l i = Some a -> nth_error l' i = Some b -> a = b) -> l = l'.
Proof.
  revert l'. induction l as [|x l IH]; intros [|y l'] L H; try discriminate; [reflexivity|].
  f_equal; [exact (H 0%nat x y eq_refl eq_refl)|]. apply IH; [cbn in L; lia|]. intros i a d A B. exact (H (S i) a d A B).
Qed.

(** *** Stoch, for any values, highs and lows (gaps included) *)
Definition amap3 (k b : R) (x : option R * option R * option R) : option R * option R * option R :=
  (option_map (aff k b) (fst (fst x)), option_map (aff k b) (snd (fst x)), option_map (aff k b) (snd x)).

Lemma stoch_hist_aff len i0 k b rh : 0 < k ->
  stoch_hist len i0 (map lift3 (map (amap3 k b) rh)) = stoch_hist len i0 (map lift3 rh).
Proof.
  intros K. induction rh as [|[[v h] l] rh IH]; [reflexivity|].
  assert (U : forall x (o : list (option xr * option xr * option xr)), stoch_hist len i0 (x :: o) =
    if (len <=? i0 + S (length o))%nat then
      match fst (fst x), best (fun v m => fltb m v) (present (lastn len (rev (map (fun y => snd (fst y)) (x :: o))))),
            best (fun v m => fltb v m) (present (lastn len (rev (map snd (x :: o))))) with
      | Some v, Some h, Some l => if feqb (fsub h l) (fZ 0) then stoch_hist len i0 o else Some (stoch_val v h l)
      | _, _, _ => None
      end
    else None) by reflexivity.
  change (map lift3 (map (amap3 k b) ((v, h, l) :: rh))) with (lift3 (amap3 k b (v, h, l)) :: map lift3 (map (amap3 k b) rh)).
  change (map lift3 ((v, h, l) :: rh)) with (lift3 (v, h, l) :: map lift3 rh).
  rewrite !U, !map_length. destruct (len <=? i0 + S (length rh))%nat; [|reflexivity].
  set (t := (v, h, l) :: rh).
  assert (HH : rev (map (fun y => snd (fst y)) (lift3 (amap3 k b (v, h, l)) :: map lift3 (map (amap3 k b) rh))) =
               lift (amap k b (rev (map (fun y => snd (fst y)) t)))).
  { change (lift3 (amap3 k b (v, h, l)) :: map lift3 (map (amap3 k b) rh)) with (map lift3 (map (amap3 k b) t)).
    unfold lift, amap. rewrite !map_map, <- !map_rev, !map_map. reflexivity. }
  assert (LL : rev (map snd (lift3 (amap3 k b (v, h, l)) :: map lift3 (map (amap3 k b) rh))) =
               lift (amap k b (rev (map snd t)))).
  { change (lift3 (amap3 k b (v, h, l)) :: map lift3 (map (amap3 k b) rh)) with (map lift3 (map (amap3 k b) t)).
    unfold lift, amap. rewrite !map_map, <- !map_rev, !map_map. reflexivity. }
  assert (H0 : rev (map (fun y => snd (fst y)) (lift3 (v, h, l) :: map lift3 rh)) = lift (rev (map (fun y => snd (fst y)) t))).
  { change (lift3 (v, h, l) :: map lift3 rh) with (map lift3 t). unfold lift. rewrite map_map, <- !map_rev, !map_map. reflexivity. }
  assert (L0 : rev (map snd (lift3 (v, h, l) :: map lift3 rh)) = lift (rev (map snd t))).
  { change (lift3 (v, h, l) :: map lift3 rh) with (map lift3 t). unfold lift. rewrite map_map, <- !map_rev, !map_map. reflexivity. }
  rewrite HH, LL, H0, L0.
  rewrite !lift_lastn, !lift_present, !fin_best_max, !fin_best_min, !amap_lastn, !amap_present, Rmaximum_aff, Rminimum_aff by exact K.
  destruct v as [v|]; [|reflexivity]. cbn [lift3 amap3 fst snd option_map].
  destruct (Rmaximum _) as [mx|]; [|reflexivity]. destruct (Rminimum _) as [mn|]; [|reflexivity]. cbn [option_map].
  unfold stoch_val. rewrite !fin_sub, !fin_Z, !fin_eq, !aff_sub.
  destruct (Reqb_spec (k * (mx - mn)) 0) as [Q|Q], (Reqb_spec (mx - mn) 0) as [Q'|Q'].
  - exact IH.
  - apply Rmult_integral in Q. lra.
  - rewrite Q' in Q. lra.
  - rewrite !fin_mul, !fin_div by assumption. do 2 f_equal. field. split; [exact Q'|lra].
Qed.

Theorem C74_stoch_invariant len (c : ctx xr) k b xs : (1 <= len)%nat -> 0 < k ->
  exists os, run_new (stoch_new len) stoch_step c (map lift3 xs) = Ok os /\
             run_new (stoch_new len) stoch_step c (map lift3 (map (amap3 k b) xs)) = Ok os.
Proof.
  intros L K. rewrite !(makes_run _ _ _ _ c _ (stoch_makes len L) I). eexists; split; [reflexivity|].
  f_equal. rewrite map_map. rewrite !each_prefix_of_map. apply each_prefix_ext. intros p.
  unfold stoch_out. rewrite <- !map_rev, <- (stoch_hist_aff len (c_index c) k b (rev p) K), map_map. reflexivity.
Qed.

(** *** Percent rank: any order-preserving change of the inputs *)
Theorem C74_prank_invariant len (c : ctx xr) k b xs : (1 <= len)%nat -> 0 < k ->
  exists os, run_new (prank_new len) prank_step c (lift xs) = Ok os /\
             run_new (prank_new len) prank_step c (lift (amap k b xs)) = Ok os.
Proof.
  intros L K. rewrite !(makes_run _ _ _ _ c _ (prank_makes len L) I). eexists; split; [reflexivity|].
  f_equal. unfold lift, amap. rewrite map_map, !each_prefix_of_map. apply each_prefix_ext. intros p.
  unfold prank_out. rewrite !newest_map, !map_length.
  destruct (newest p) as [[v|]|]; [|reflexivity|reflexivity]. cbn [option_map join].
  destruct (len <? c_index c + length p)%nat; [|reflexivity]. f_equal. unfold prank_val.
  assert (E : forall l : list (option R),
    length (filter (fun y : option xr => match y with Some x => fleb x (Fin (aff k b v)) | None => false end)
      (map (fun x => option_map Fin (option_map (aff k b) x)) l)) =
    length (filter (fun y : option xr => match y with Some x => fleb x (Fin v) | None => false end) (map (option_map Fin) l))).
  { induction l as [|[x|] l IH]; [reflexivity| |exact IH]. cbn [map option_map filter]. rewrite !fin_le.
    destruct (Rleb_spec (aff k b x) (aff k b v)) as [P|P], (Rleb_spec x v) as [P'|P']; cbn [length]; try (rewrite IH; reflexivity);
      try exact IH; exfalso; [apply (aff_le k b K) in P|apply (aff_le k b K) in P']; lra. }
  assert (RL : forall {X Y} (g : X -> Y) l, removelast (map g l) = map g (removelast l)).
  { intros X Y g l. induction l as [|x [|y l] IH]; try reflexivity. cbn [map removelast] in *. rewrite IH. reflexivity. }
  assert (LM : forall {X Y} (g : X -> Y) n l, lastn n (map g l) = map g (lastn n l)).
  { intros. unfold lastn. rewrite map_length. apply skipn_map. }
  rewrite !RL, !LM, E. reflexivity.
Qed.

(** *** Bars *)
Lemma pairs_map {X Y} (g : X -> Y) l : pairs (map g l) = map (fun p => (g (fst p), g (snd p))) (pairs l).
Proof. induction l as [|x [|y l] IH]; try reflexivity. cbn [map pairs] in *. rewrite IH. reflexivity. Qed.
Section Bars.
  Variables k b : R.
  Hypothesis K : 0 < k.
  Notation AB := (abar k b).
  Lemma Rtr_abar p r : Rtr (AB p) (AB r) = k * Rtr p r.
  Proof.
    unfold Rtr. cbn [abar rh rl rc]. rewrite !aff_sub, !abs_mult by exact K.
    rewrite !(fun x y => eq_sym (aff_max k 0 K x y)) || idtac.
    assert (M : forall x y, Rmax (k * x) (k * y) = k * Rmax x y).
    { intros. unfold Rmax. destruct (Rle_dec (k * x) (k * y)), (Rle_dec x y); nra. }
    rewrite !M. reflexivity.
  Qed.
  Lemma Rtrs_abar h : Rtrs (map AB h) = map (Rmult k) (Rtrs h).
  Proof.
    destruct h as [|r h]; [reflexivity|]. unfold Rtrs. cbn [map]. change (AB r :: map AB h) with (map AB (r :: h)).
    rewrite pairs_map, !map_map. f_equal; [cbn [abar rh rl]; apply aff_sub|].
    apply map_ext. intros p. apply Rtr_abar.
  Qed.
  Lemma Rsum_mult l : Rsum (map (Rmult k) l) = k * Rsum l.
  Proof. induction l as [|x l IH]; cbn [map Rsum]; [ring|rewrite IH; ring]. Qed.
  Lemma is_max_aff m w : is_max m w -> is_max (aff k b m) (map (aff k b) w).
  Proof.
    intros [I A]. split; [apply in_map, I|]. apply Forall_map. eapply Forall_impl; [|exact A].
    intros x X. apply aff_le; assumption.
  Qed.
  Lemma is_min_aff m w : is_min m w -> is_min (aff k b m) (map (aff k b) w).
  Proof.
    intros [I A]. split; [apply in_map, I|]. apply Forall_map. eapply Forall_impl; [|exact A].
    intros x X. apply aff_le; assumption.
  Qed.
  Lemma max_unique m m' w : is_max m w -> is_max m' w -> m = m'.
  Proof. intros [I A] [I' A']. rewrite Forall_forall in *. apply Rle_antisym; auto. Qed.
  Lemma min_unique m m' w : is_min m w -> is_min m' w -> m = m'.
  Proof. intros [I A] [I' A']. rewrite Forall_forall in *. apply Rle_antisym; auto. Qed.
  Lemma col_abar (g : rbar5 -> R) w : (forall r, g (AB r) = aff k b (g r)) -> map g (map AB w) = map (aff k b) (map g w).
  Proof. intros E. rewrite !map_map. apply map_ext, E. Qed.
End Bars.

Section Invariance.
  Variables (k b : R) (c c' : ctx xr) (rs : list rbar5).
  Hypothesis K : 0 < k.
  Hypothesis HF : fresh_over c (map bar_of rs).
  Hypothesis HF' : fresh_over c' (map bar_of (map (abar k b) rs)).
  Notation n := (length rs).
  Lemma ticks_same : ticks (length (map (abar k b) rs)) = ticks n.
  Proof. rewrite map_length. reflexivity. Qed.

  (** True range and its average: scaled, blind to shifts. *)
  Theorem C74_tr : exists ts, run tr_step c true (ticks n) = Ok (full ts) /\
    run tr_step c' true (ticks n) = Ok (full (map (Rmult k) ts)).
  Proof.
    exists (Rtrs rs). split.
    - rewrite <- (map_length bar_of rs), tr_run, tr_series by (auto; apply full_has_hl). reflexivity.
    - rewrite <- ticks_same, <- (map_length bar_of (map _ rs)), tr_run, tr_series, Rtrs_abar by (auto; apply full_has_hl). reflexivity.
  Qed.
  Theorem C74_atr len : (1 <= len)%nat -> exists os, run_new (atr_new len) atr_step c (ticks n) = Ok (lift os) /\
    run_new (atr_new len) atr_step c' (ticks n) = Ok (lift (amap k 0 os)).
  Proof.
    intros L. exists (each_prefix (fun h => Rsmooth (1 / INR len) len (Rtrs h)) rs). unfold run_new.
    destruct (atr_run len c (map bar_of rs) L HF (full_has_hl rs)) as (s & E & R).
    destruct (atr_run len c' (map bar_of (map (abar k b) rs)) L HF' (full_has_hl _)) as (s' & E' & R').
    assert (s' = s) by congruence. subst s'. rewrite E. cbn [rbind].
    rewrite map_length in R. rewrite map_length, map_length in R'. rewrite R, R'. unfold lift, amap. rewrite !each_prefix_of_map, !each_prefix_map.
    split; f_equal; apply each_prefix_ext; intros p.
    - apply atr_bar, L.
    - rewrite atr_bar, Rtrs_abar, mult_aff, Rsmooth_aff by assumption. reflexivity.
  Qed.

  Lemma nth_bar i : (i < n)%nat -> exists r, nth_error rs i = Some r.
  Proof. intros H. destruct (nth_error rs i) eqn:E; [eauto|]. apply nth_error_None in E. lia. Qed.
  Lemma window_abar len i : full_window len (firstn (S i) (map (abar k b) rs)) = option_map (map (abar k b)) (full_window len (firstn (S i) rs)).
  Proof. rewrite firstn_map. apply full_window_map. Qed.

  (** Williams %R of any source that moves with the prices. *)
  Theorem C74_williams_invariant len src src' vs : (1 <= len)%nat -> length vs = n ->
    feeds c src (full vs) -> feeds c' src' (full (map (aff k b) vs)) ->
    exists os, run_new (wpr_new src len) wpr_step c (ticks n) = Ok os /\
               run_new (wpr_new src' len) wpr_step c' (ticks n) = Ok os.
  Proof.
    intros L LV FS FS'.
    destruct (C52_exact len c src vs rs L LV FS HF) as (os & E & LO & A).
    destruct (C52_exact len c' src' (map (aff k b) vs) (map (abar k b) rs) L ltac:(rewrite !map_length; exact LV) FS' HF') as (os' & E' & LO' & A').
    rewrite map_length in E', LO'. exists os. split; [exact E|]. rewrite E'. f_equal. symmetry. apply eq_nth; [lia|].
    intros i x y X Y. assert (B : (i < n)%nat) by (rewrite <- LO; apply nth_error_Some; congruence).
    destruct (nth_bar i B) as [r Hr]. destruct (nth_error vs i) as [v|] eqn:Hv; [|apply nth_error_None in Hv; lia].
    specialize (A i v r x Hv Hr X). specialize (A' i _ _ y (map_nth_error _ _ _ Hv) (map_nth_error _ _ _ Hr) Y).
    rewrite window_abar in A'. destruct (full_window len (firstn (S i) rs)) as [w|]; [|cbn in A'; congruence].
    cbn [option_map] in A'. destruct A as (u & l & U & D & A1 & A2), A' as (u' & l' & U' & D' & A1' & A2').
    rewrite (col_abar k b rh) in U' by reflexivity. rewrite (col_abar k b rl) in D' by reflexivity.
    assert (u' = aff k b u) by (eapply max_unique; [exact U'|apply is_max_aff; assumption]).
    assert (l' = aff k b l) by (eapply min_unique; [exact D'|apply is_min_aff; assumption]). subst u' l'.
    destruct (Req_dec u l) as [Q|Q].
    - rewrite (A1 Q), A1' by (f_equal; exact Q). reflexivity.
    - rewrite (proj1 (A2 Q)), (proj1 (A2' ltac:(intros C; apply Q, (aff_inj k b K), C))). do 2 f_equal.
      rewrite !aff_sub. field. split; lra.
  Qed.

  (** Chande momentum oscillator of any source that moves with the prices. *)
  Theorem C74_cmo_invariant len src src' vs : (2 <= len)%nat -> length vs = n ->
    feeds c src (full vs) -> feeds c' src' (full (map (aff k b) vs)) ->
    exists os, run_new (cmo_new src len) cmo_step c (ticks n) = Ok os /\
               run_new (cmo_new src' len) cmo_step c' (ticks n) = Ok os.
  Proof.
    intros L LV FS FS'.
    destruct (C55_exact len c src vs L FS) as (os & E & LO & A).
    destruct (C55_exact len c' src' (map (aff k b) vs) L FS') as (os' & E' & LO' & A').
    rewrite map_length in E', LO'. rewrite LV in *. exists os. split; [exact E|]. rewrite E'. f_equal. symmetry. apply eq_nth; [lia|].
    intros i x y X Y. specialize (A i x X). specialize (A' i y Y). rewrite firstn_map, diffs_aff, full_window_map in A'.
    destruct (full_window len _) as [w|]; [|cbn in A'; congruence]. cbn [option_map] in A'. cbv zeta in A, A'.
    assert (TR : total_rise (map (Rmult k) w) = k * total_rise w).
    { unfold total_rise. rewrite map_map, <- Rsum_mult, map_map. f_equal. apply map_ext. intros d. apply max0_mult, K. }
    assert (TF : total_fall (map (Rmult k) w) = k * total_fall w).
    { unfold total_fall. rewrite map_map, <- Rsum_mult, map_map. f_equal. apply map_ext. intros d. rewrite <- (max0_mult k K). f_equal. ring. }
    rewrite TR, TF in A'. destruct A as [A1 A2], A' as [A1' A2'].
    assert (Z : Forall (fun x => x = 0) (map (Rmult k) w) <-> Forall (fun x => x = 0) w).
    { rewrite Forall_map. split; intros H; (eapply Forall_impl; [|exact H]); intros d; cbn beta; intros D.
      - apply Rmult_integral in D. lra.
      - rewrite D. ring. }
    destruct (Req_dec (total_rise w + total_fall w) 0) as [Q|Q].
    - apply nothing_moved in Q. rewrite (A1 Q), (A1' (proj2 Z Q)). reflexivity.
    - assert (Q' : ~ Forall (fun x => x = 0) w) by (intros H; apply Q, nothing_moved, H).
      rewrite (proj1 (A2 Q')), (proj1 (A2' ltac:(intros H; apply Q', Z, H))). do 2 f_equal.
      rewrite <- Rmult_minus_distr_l, <- Rmult_plus_distr_l. field. split; [exact Q|lra].
  Qed.

  (** Balance of power. *)
  Theorem C74_bop_invariant : exists os, run bop_step c tt (ticks n) = Ok os /\ run bop_step c' tt (ticks n) = Ok os.
  Proof.
    destruct (C53_bop c (map bar_of rs) HF) as (os & E & LO & A).
    destruct (C53_bop c' (map bar_of (map (abar k b) rs)) HF') as (os' & E' & LO' & A').
    rewrite !map_length in *. exists os. split; [exact E|]. rewrite E'. f_equal. symmetry. apply eq_nth; [lia|].
    intros i x y X Y. assert (B : (i < n)%nat) by (rewrite <- LO; apply nth_error_Some; congruence).
    destruct (nth_bar i B) as [r Hr].
    specialize (A i _ (map_nth_error bar_of _ _ Hr)). specialize (A' i _ (map_nth_error bar_of _ _ (map_nth_error (abar k b) _ _ Hr))).
    rewrite X in A. rewrite Y in A'. injection A as ->. injection A' as ->.
    cbn [bar_of abar b_open b_high b_low b_close ro rh rl rc]. rewrite !fin_eq.
    destruct (Reqb_spec (aff k b (rh r)) (aff k b (rl r))) as [Q|Q], (Reqb_spec (rh r) (rl r)) as [Q'|Q']; try reflexivity.
    - apply (aff_inj k b K) in Q. contradiction.
    - rewrite Q' in Q. contradiction.
    - assert (aff k b (rh r) - aff k b (rl r) <> 0) by (intros C; apply Q; lra). assert (rh r - rl r <> 0) by (intros C; apply Q'; lra).
      destruct (Req_EM_T _ 0); [contradiction|]. destruct (Req_EM_T _ 0); [contradiction|].
      do 2 f_equal. rewrite !aff_sub. field. split; lra.
  Qed.
  (** Chaikin money flow. *)
  Theorem C74_cmf_invariant len : (1 <= len)%nat ->
    exists os, run_new (cmf_new len) cmf_step c (ticks n) = Ok os /\ run_new (cmf_new len) cmf_step c' (ticks n) = Ok os.
  Proof.
    intros L.
    destruct (C54_exact len c rs L HF) as (os & E & LO & A).
    destruct (C54_exact len c' (map (abar k b) rs) L HF') as (os' & E' & LO' & A').
    rewrite map_length in E', LO'. exists os. split; [exact E|]. rewrite E'. f_equal. symmetry. apply eq_nth; [lia|].
    intros i x y X Y. specialize (A i x X). specialize (A' i y Y). rewrite window_abar in A'.
    destruct (full_window len (firstn (S i) rs)) as [w|]; [|cbn in A'; congruence]. cbn [option_map] in A'.
    assert (V : map rv (map (abar k b) w) = map rv w) by (rewrite map_map; reflexivity).
    assert (FL : map Rflow (map (abar k b) w) = map Rflow w).
    { rewrite map_map. apply map_ext. intros r. unfold Rflow. cbn [abar rh rl rc rv].
      destruct (Req_EM_T (aff k b (rh r)) (aff k b (rl r))) as [Q|Q], (Req_EM_T (rh r) (rl r)) as [Q'|Q']; try reflexivity.
      - apply (aff_inj k b K) in Q. contradiction.
      - rewrite Q' in Q. contradiction.
      - rewrite !aff_sub. field. split; lra. }
    rewrite V, FL in A'. destruct A as (A1 & A2 & _), A' as (A1' & A2' & _).
    destruct (Req_dec (Rsum (map rv w)) 0) as [Q|Q]; [rewrite (A1 Q), (A1' Q)|rewrite (A2 Q), (A2' Q)]; reflexivity.
  Qed.
  (** Ultimate oscillator. *)
  Lemma bp_ratio_abar len h : bp_ratio len (map (abar k b) h) = bp_ratio len h.
  Proof.
    unfold bp_ratio. rewrite pairs_map, full_window_map. destruct (full_window len (pairs h)) as [w|]; [|reflexivity]. cbn [option_map].
    assert (B1 : Rsum (map (fun p => Rbp (fst p) (snd p)) (map (fun p => (abar k b (fst p), abar k b (snd p))) w)) = k * Rsum (map (fun p => Rbp (fst p) (snd p)) w)).
    { rewrite <- Rsum_mult, !map_map. f_equal. apply map_ext. intros p. unfold Rbp. cbn [fst snd abar rc rl]. rewrite aff_min by exact K. apply aff_sub. }
    assert (B2 : Rsum (map (fun p => Rwide (fst p) (snd p)) (map (fun p => (abar k b (fst p), abar k b (snd p))) w)) = k * Rsum (map (fun p => Rwide (fst p) (snd p)) w)).
    { rewrite <- Rsum_mult, !map_map. f_equal. apply map_ext. intros p. unfold Rwide. cbn [fst snd abar rc rl rh]. rewrite aff_min, aff_max by exact K. apply aff_sub. }
    rewrite B1, B2. set (t := Rsum (map (fun p => Rwide (fst p) (snd p)) w)).
    destruct (Req_EM_T (k * t) 0) as [Q|Q], (Req_EM_T t 0) as [Q'|Q']; try reflexivity.
    - apply Rmult_integral in Q. lra.
    - rewrite Q' in Q. lra.
    - f_equal. field. split; [exact Q'|lra].
  Qed.
  Theorem C74_ultimate_invariant l1 l2 l3 : (1 <= l1)%nat -> (1 <= l2)%nat -> (1 <= l3)%nat ->
    exists os, run_new (uo_new l1 l2 l3) uo_step c (ticks n) = Ok os /\ run_new (uo_new l1 l2 l3) uo_step c' (ticks n) = Ok os.
  Proof.
    intros L1 L2 L3.
    destruct (C56_exact l1 l2 l3 c rs L1 L2 L3 HF) as (os & E & LO & A).
    destruct (C56_exact l1 l2 l3 c' (map (abar k b) rs) L1 L2 L3 HF') as (os' & E' & LO' & A').
    rewrite map_length in E', LO'. exists os. split; [exact E|]. rewrite E'. f_equal. symmetry. apply eq_nth; [lia|].
    intros i x y X Y. specialize (A i x X). specialize (A' i y Y). cbv zeta in A, A'. rewrite firstn_map, !bp_ratio_abar in A'.
    set (h := firstn (S i) rs) in *. destruct (bp_ratio l1 h), (bp_ratio l2 h), (bp_ratio l3 h); try congruence. rewrite (proj1 A), (proj1 A'). reflexivity.
  Qed.
  (** Vortex. *)
  Lemma vortex_abar f len w : (forall p r, f (abar k b p) (abar k b r) = k * f p r) -> (1 <= len)%nat ->
    vortex_ratio f (map (fun p => (abar k b (fst p), abar k b (snd p))) w) = vortex_ratio f w.
  Proof.
    intros Hf L. unfold vortex_ratio.
    assert (B1 : Rsum (map (fun p => Rtr (fst p) (snd p)) (map (fun p => (abar k b (fst p), abar k b (snd p))) w)) = k * Rsum (map (fun p => Rtr (fst p) (snd p)) w)).
    { rewrite <- Rsum_mult, !map_map. f_equal. apply map_ext. intros p. cbn [fst snd]. apply Rtr_abar, K. }
    assert (B2 : Rsum (map (fun p => f (fst p) (snd p)) (map (fun p => (abar k b (fst p), abar k b (snd p))) w)) = k * Rsum (map (fun p => f (fst p) (snd p)) w)).
    { rewrite <- Rsum_mult, !map_map. f_equal. apply map_ext. intros p. apply Hf. }
    rewrite B1, B2. set (t := Rsum (map (fun p => Rtr (fst p) (snd p)) w)). cbv zeta.
    destruct (Req_EM_T (k * t) 0) as [Q|Q], (Req_EM_T t 0) as [Q'|Q']; try reflexivity.
    - apply Rmult_integral in Q. lra.
    - rewrite Q' in Q. lra.
    - f_equal. field. split; [exact Q'|lra].
  Qed.
  Theorem C74_vortex_invariant len : (1 <= len)%nat ->
    exists os, run_new (vortex_new len) vortex_step c (ticks n) = Ok os /\ run_new (vortex_new len) vortex_step c' (ticks n) = Ok os.
  Proof.
    intros L.
    destruct (C67_exact len c rs L HF) as (os & E & LO & A).
    destruct (C67_exact len c' (map (abar k b) rs) L HF') as (os' & E' & LO' & A').
    rewrite map_length in E', LO'. exists os. split; [exact E|]. rewrite E'. f_equal. symmetry. apply eq_nth; [lia|].
    intros i x y X Y. specialize (A i x X). specialize (A' i y Y). rewrite firstn_map, pairs_map, full_window_map in A'.
    destruct (full_window len _) as [w|]; [|cbn in A'; congruence]. cbn [option_map] in A'.
    rewrite (proj1 A), (proj1 A'). rewrite !(vortex_abar _ len) by (try exact L; intros; unfold Rvp, Rvm; cbn [abar rh rl]; rewrite aff_sub; apply abs_mult, K).
    reflexivity.
  Qed.
  (** Commodity channel index of any source that moves with the prices. *)
  Theorem C74_cci_invariant len src src' vs : (2 <= len)%nat -> length vs = n ->
    feeds c src (full vs) -> feeds c' src' (full (map (aff k b) vs)) ->
    exists os, run_new (cci_new src len) cci_step c (ticks n) = Ok os /\
               run_new (cci_new src' len) cci_step c' (ticks n) = Ok os.
  Proof.
    intros L LV FS FS'.
    destruct (C60_exact len c src vs L FS) as (os & E & LO & A).
    destruct (C60_exact len c' src' (map (aff k b) vs) L FS') as (os' & E' & LO' & A').
    rewrite map_length in E', LO'. rewrite LV in *. exists os. split; [exact E|]. rewrite E'. f_equal. symmetry. apply eq_nth; [lia|].
    intros i x y X Y. assert (B : (i < n)%nat) by (rewrite <- LO; apply nth_error_Some; congruence).
    destruct (nth_error vs i) as [v|] eqn:Hv; [|apply nth_error_None in Hv; lia].
    specialize (A i v x Hv X). specialize (A' i _ y (map_nth_error _ _ _ Hv) Y). rewrite firstn_map, full_window_map in A'.
    destruct (full_window len _) as [w|] eqn:W; [|cbn in A'; congruence]. cbn [option_map] in A'.
    apply full_window_Some in W. destruct W as (_ & W & _). assert (NW : w <> []) by (intros ->; cbn in W; lia).
    rewrite Rmad_aff, Rmean_aff in A' by assumption. destruct A as [A1 A2], A' as [A1' A2'].
    destruct (Req_dec (Rmad w) 0) as [Q|Q].
    - rewrite (A1 Q), A1' by (rewrite Q; ring). reflexivity.
    - assert (k * Rmad w <> 0) by (intros C; apply Rmult_integral in C; lra).
      rewrite (A2 Q), A2' by assumption. do 2 f_equal. rewrite aff_sub. field. split; [exact Q|lra].
  Qed.
  (** Aroon. *)
  Lemma first_max_aff w j j' : first_max (lift w) j -> first_max (lift (amap k b w)) j' -> j = j'.
  Proof.
    intros (m & M & A & B) (m' & M' & A' & B').
    assert (N : forall i, nth_error (lift (amap k b w)) i = option_map (option_map Fin) (option_map (option_map (aff k b)) (nth_error w i))).
    { intros i. unfold lift, amap. rewrite !nth_error_map. reflexivity. }
    assert (N0 : forall i, nth_error (lift w) i = option_map (option_map Fin) (nth_error w i)).
    { intros i. unfold lift. apply nth_error_map. }
    rewrite N0 in M. rewrite N in M'.
    destruct (nth_error w j) as [[x|]|] eqn:X; try discriminate. destruct (nth_error w j') as [[y|]|] eqn:Y; try discriminate.
    cbn in M, M'. injection M as <-. injection M' as <-.
    destruct (Nat.lt_trichotomy j j') as [H|[H|H]]; [|exact H|].
    - specialize (B' j (Fin (aff k b x)) H). rewrite N, X in B'. specialize (B' eq_refl). rewrite fin_lt in B'.
      specialize (A j' (Fin y)). rewrite N0, Y in A. specialize (A eq_refl). rewrite fin_le in A.
      destruct (Rltb_spec (aff k b x) (aff k b y)) as [Q|]; [|discriminate]. apply (aff_lt k b K) in Q.
      destruct (Rleb_spec y x); [lra|discriminate].
    - specialize (B j' (Fin y) H). rewrite N0, Y in B. specialize (B eq_refl). rewrite fin_lt in B.
      specialize (A' j (Fin (aff k b x))). rewrite N, X in A'. specialize (A' eq_refl). rewrite fin_le in A'.
      destruct (Rleb_spec (aff k b x) (aff k b y)) as [Q|]; [|discriminate]. apply (aff_le k b K) in Q.
      destruct (Rltb_spec y x); [lra|discriminate].
  Qed.
  Lemma first_min_aff w j j' : first_min (lift w) j -> first_min (lift (amap k b w)) j' -> j = j'.
  Proof.
    intros (m & M & A & B) (m' & M' & A' & B').
    assert (N : forall i, nth_error (lift (amap k b w)) i = option_map (option_map Fin) (option_map (option_map (aff k b)) (nth_error w i))).
    { intros i. unfold lift, amap. rewrite !nth_error_map. reflexivity. }
    assert (N0 : forall i, nth_error (lift w) i = option_map (option_map Fin) (nth_error w i)).
    { intros i. unfold lift. apply nth_error_map. }
    rewrite N0 in M. rewrite N in M'.
    destruct (nth_error w j) as [[x|]|] eqn:X; try discriminate. destruct (nth_error w j') as [[y|]|] eqn:Y; try discriminate.
    cbn in M, M'. injection M as <-. injection M' as <-.
    destruct (Nat.lt_trichotomy j j') as [H|[H|H]]; [|exact H|].
    - specialize (B' j (Fin (aff k b x)) H). rewrite N, X in B'. specialize (B' eq_refl). rewrite fin_lt in B'.
      specialize (A j' (Fin y)). rewrite N0, Y in A. specialize (A eq_refl). rewrite fin_le in A.
      destruct (Rltb_spec (aff k b y) (aff k b x)) as [Q|]; [|discriminate]. apply (aff_lt k b K) in Q.
      destruct (Rleb_spec x y); [lra|discriminate].
    - specialize (B j' (Fin y) H). rewrite N0, Y in B. specialize (B eq_refl). rewrite fin_lt in B.
      specialize (A' j (Fin (aff k b x))). rewrite N, X in A'. specialize (A' eq_refl). rewrite fin_le in A'.
      destruct (Rleb_spec (aff k b y) (aff k b x)) as [Q|]; [|discriminate]. apply (aff_le k b K) in Q.
      destruct (Rltb_spec x y); [lra|discriminate].
  Qed.
  Lemma no_nan_fin (g : rbar5 -> R) (p : bar xr -> option xr) l : (forall r, p (bar_of r) = Some (Fin (g r))) ->
    no_nan (present (map p (map bar_of l))).
  Proof.
    intros E. unfold no_nan. induction l as [|r l IH]; [constructor|]. cbn [map present]. rewrite E. constructor; [reflexivity|exact IH].
  Qed.
  Lemma col_lift (g : rbar5 -> R) (p : bar xr -> option xr) l : (forall r, p (bar_of r) = Some (Fin (g r))) ->
    map p (map bar_of l) = lift (map (fun r => Some (g r)) l).
  Proof. intros E. unfold lift. rewrite !map_map. apply map_ext, E. Qed.
  Lemma col_lift_aff (g : rbar5 -> R) (p : bar xr -> option xr) l : (forall r, p (bar_of r) = Some (Fin (g r))) -> (forall r, g (abar k b r) = aff k b (g r)) ->
    map p (map bar_of (map (abar k b) l)) = lift (amap k b (map (fun r => Some (g r)) l)).
  Proof. intros E G. unfold lift, amap. rewrite !map_map. apply map_ext. intros r. rewrite E, G. reflexivity. Qed.
  Theorem C74_aroon_invariant len : (1 <= len)%nat -> (Z.of_nat len <= 2 ^ 31)%Z ->
    exists os, run_new (aroon_new len) aroon_step c (ticks n) = Ok os /\ run_new (aroon_new len) aroon_step c' (ticks n) = Ok os.
  Proof.
    intros L L31.
    destruct (C47_aroon len c (map bar_of rs) L L31 HF (full_has_hl _)) as (os & E & LO & A);
      [apply (no_nan_fin rh); reflexivity|apply (no_nan_fin rl); reflexivity|].
    destruct (C47_aroon len c' (map bar_of (map (abar k b) rs)) L L31 HF' (full_has_hl _)) as (os' & E' & LO' & A');
      [apply (no_nan_fin rh); reflexivity|apply (no_nan_fin rl); reflexivity|].
    rewrite !map_length in *. exists os. split; [exact E|]. rewrite E'. f_equal. symmetry. apply eq_nth; [lia|].
    intros i x y X Y. specialize (A i x X). specialize (A' i y Y). cbv zeta in A, A'.
    destruct (S i <? len)%nat eqn:T; [congruence|].
    destruct A as (ku & kd & U & D & -> & M & N), A' as (ku' & kd' & U' & D' & -> & M' & N').
    rewrite (col_lift rh), lift_firstn, lift_lastn in M by reflexivity. rewrite (col_lift rl), lift_firstn, lift_lastn in N by reflexivity.
    rewrite (col_lift_aff rh), lift_firstn, lift_lastn in M' by reflexivity. rewrite (col_lift_aff rl), lift_firstn, lift_lastn in N' by reflexivity.
    unfold amap in M', N'. rewrite firstn_map in M', N'. fold (amap k b (firstn (S i) (map (fun r => Some (rh r)) rs))) in M'.
    fold (amap k b (firstn (S i) (map (fun r => Some (rl r)) rs))) in N'. rewrite amap_lastn in M', N'.
    pose proof (first_max_aff _ _ _ M M'). pose proof (first_min_aff _ _ _ N N').
    replace ku' with ku by lia. replace kd' with kd by lia. reflexivity.
  Qed.
End Invariance.

(** A currency change and a shift of a small series. *)
Example C74_ex : map (aff 2 0) [10; 11; 13] = [20; 22; 26] /\ map (aff 1 5) [10; 11; 13] = [15; 16; 18] /\
  exists c', ctx_over (map bar_of (map (abar 2 0) [mkRB 10 12 9 11 100; mkRB 11 14 10 13 120])) = Ok c' /\
    fresh_over c' (map bar_of (map (abar 2 0) [mkRB 10 12 9 11 100; mkRB 11 14 10 13 120])) /\
    feeds c' (src_box SClose) (full (map (aff 2 0) [11; 13])).
Proof.
  split; [cbn; unfold aff; repeat f_equal; ring|]. split; [cbn; unfold aff; repeat f_equal; ring|].
  eexists. split; [reflexivity|]. split; [split; [repeat split|reflexivity]|]. reflexivity.
Qed.
