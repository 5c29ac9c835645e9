(** * PExact: closed forms in exact arithmetic. *)
From Verif Require Export SpecReal PTa3.
Local Open Scope R_scope.

Lemma lift_app h h' : lift (h ++ h') = lift h ++ lift h'.
Proof. apply map_app. Qed.
Lemma lift_full vs : lift (map Some vs) = full vs.
Proof. unfold lift, full. rewrite map_map. reflexivity. Qed.
Lemma full_map vs : full vs = map Some (map Fin vs).
Proof. unfold full. rewrite map_map. reflexivity. Qed.
Lemma lift_length h : length (lift h) = length h.
Proof. apply map_length. Qed.
Lemma lift_lastn n h : lastn n (lift h) = lift (lastn n h).
Proof. unfold lastn, lift. rewrite map_length, skipn_map. reflexivity. Qed.
Lemma lift_firstn n h : firstn n (lift h) = lift (firstn n h).
Proof. apply firstn_map. Qed.
Lemma lift_present h : present (lift h) = map Fin (present h).
Proof. unfold lift. induction h as [|[x|] h IH]; cbn; rewrite ?IH; reflexivity. Qed.
Lemma lift_all_some h : all_some (lift h) = option_map (map Fin) (all_some h).
Proof.
  unfold lift. induction h as [|[x|] h IH]; cbn; [reflexivity| |reflexivity].
  rewrite IH. destruct (all_some h); reflexivity.
Qed.
Lemma lift_window n h : window n (lift h) = option_map (map Fin) (window n h).
Proof.
  unfold window. rewrite lift_length, lift_lastn, lift_all_some. destruct (n <=? length h)%nat; reflexivity.
Qed.
Lemma lift_newest h : join (newest (lift h)) = option_map Fin (join (newest h)).
Proof. unfold lift. rewrite newest_map. destruct (newest h) as [[]|]; reflexivity. Qed.
Lemma lift_ago k h : join (ago k (lift h)) = option_map Fin (join (ago k h)).
Proof. unfold lift. rewrite ago_map. destruct (ago k h) as [[]|]; reflexivity. Qed.
Lemma lift_each_prefix (f : list (option xr) -> option xr) (g : list (option R) -> option R) h :
  (forall p, In p (prefixes h) -> f (lift p) = option_map Fin (g p)) ->
  each_prefix f (lift h) = lift (each_prefix g h).
Proof.
  intros E. unfold lift at 1. rewrite each_prefix_of_map.
  unfold lift. rewrite each_prefix_map. apply each_prefix_ext_in. exact E.
Qed.

Lemma window_present {A} n (h : list (option A)) w : window n h = Some w -> present (lastn n h) = w.
Proof.
  unfold window. destruct (n <=? length h)%nat; [|discriminate]. intros E. apply all_some_Some in E.
  rewrite E. clear. induction w; cbn; [|rewrite IHw]; reflexivity.
Qed.
Lemma present_app' {A} (l m : list (option A)) : present (l ++ m) = present l ++ present m.
Proof. induction l as [|[]]; cbn; rewrite ?IHl; reflexivity. Qed.

(** ** The running sum is the sum of the window *)
Lemma racc_exact len h : (1 <= len)%nat ->
  racc len (lift h) = Fin (Rsum (present (lastn (len - 1) h))).
Proof.
  intros L. induction h as [|x h IH] using rev_ind.
  - reflexivity.
  - rewrite lift_app. change (lift [x]) with [option_map Fin x]. rewrite racc_snoc, IH.
    change (lift h ++ [option_map Fin x]) with (lift h ++ lift [x]). rewrite <- lift_app, lift_ago.
    assert (E : Rsum (present (lastn (len - 1) h)) + Rsum (present [x]) =
                Rsum (present (lastn (len - 1) (h ++ [x]))) +
                Rsum (present [join (ago (len - 1) (h ++ [x]))])).
    { destruct len as [|n]; [lia|]. replace (S n - 1)%nat with n by lia.
      pose proof (lastn_S_snoc n h x) as E1.
      destruct (Nat.ltb_spec n (length (h ++ [x]))) as [Q|Q].
      - destruct (lastn_S_split n (h ++ [x]) Q) as (a & Ea & Es). rewrite Ea. cbn [join].
        rewrite Es in E1. apply (f_equal (fun l => Rsum (present l))) in E1.
        change (a :: lastn n (h ++ [x])) with ([a] ++ lastn n (h ++ [x])) in E1.
        rewrite !present_app', !Rsum_app in E1. lra.
      - rewrite ago_unfilled by lia. rewrite (lastn_all n (h ++ [x])) by lia.
        rewrite (lastn_all n h) by (rewrite app_length in Q; cbn in Q; lia).
        rewrite present_app', Rsum_app. cbn. lra. }
    destruct x as [x|], (join (ago (len - 1) (h ++ _))) as [o|]; cbn [option_map oadd osub present Rsum] in *;
      rewrite ?fin_add, ?fin_sub; f_equal; lra.
Qed.

Lemma rsum_exact len h : (1 <= len)%nat -> h <> [] ->
  rsum len (lift h) = Fin (Rsum (present (lastn len h))).
Proof.
  intros L N. destruct h as [|x h] using rev_ind; [congruence|]. clear IHh N.
  rewrite lift_app. change (lift [x]) with [option_map Fin x]. rewrite rsum_snoc, racc_exact by exact L.
  destruct len as [|n]; [lia|]. replace (S n - 1)%nat with n by lia. rewrite lastn_S_snoc, present_app', Rsum_app.
  destruct x; cbn; f_equal; lra.
Qed.

Lemma nonnil_prefix {A} (xs p : list A) : In p (prefixes xs) -> p <> [].
Proof. intros H. apply prefix_length in H. destruct p; [cbn in H; lia|discriminate]. Qed.

Lemma sum_exact len h : (1 <= len)%nat -> h <> [] ->
  sum_out len (lift h) = option_map Fin (option_map Rsum (window len h)).
Proof.
  intros L N. unfold sum_out. rewrite lift_window, rsum_exact by assumption.
  destruct (window len h) eqn:E; [|reflexivity]. cbn. rewrite (window_present _ _ _ E). reflexivity.
Qed.

Lemma Rmean_1 x : Rmean [x] = x.
Proof. unfold Rmean; cbn. lra. Qed.

Lemma window_1 {A} (h : list (option A)) : h <> [] ->
  window 1 h = match join (newest h) with Some x => Some [x] | None => None end.
Proof.
  intros N. destruct h as [|x h] using rev_ind; [congruence|]. rewrite newest_snoc. unfold window.
  rewrite app_length; cbn [length]. destruct (Nat.leb_spec 1 (length h + 1)); [|lia].
  rewrite lastn_S_snoc, lastn_0. destruct x; reflexivity.
Qed.

Lemma INR_pos n : (1 <= n)%nat -> 0 < INR n.
Proof. intros. apply lt_0_INR. lia. Qed.

Lemma sma_exact len h : (1 <= len)%nat -> h <> [] ->
  sma_out len (lift h) = option_map Fin (option_map Rmean (window len h)).
Proof.
  intros L N. unfold sma_out. destruct (Nat.eqb_spec len 1) as [->|Q].
  - rewrite lift_newest, window_1 by exact N. destruct (join (newest h)); cbn; [rewrite Rmean_1|]; reflexivity.
  - rewrite lift_window, rsum_exact by assumption.
    destruct (window len h) as [w|] eqn:E; [|reflexivity]. cbn [option_map].
    rewrite (window_present _ _ _ E), fin_nat, fin_div by (pose proof (INR_pos len L); lra).
    unfold Rmean. rewrite (window_length _ _ _ E). reflexivity.
Qed.

Lemma sum_run_exact len c xs : (1 <= len)%nat ->
  run_new (sum_new len) sum_step c (lift xs) =
  Ok (lift (each_prefix (fun h => option_map Rsum (window len h)) xs)).
Proof.
  intros L. rewrite sum_run by exact L. f_equal. apply lift_each_prefix. intros p Hp.
  apply sum_exact; [exact L|eapply nonnil_prefix; exact Hp].
Qed.
Lemma sma_run_exact len c xs : (1 <= len)%nat ->
  run_new (sma_new len) sma_step c (lift xs) =
  Ok (lift (each_prefix (fun h => option_map Rmean (window len h)) xs)).
Proof.
  intros L. rewrite sma_run by exact L. f_equal. apply lift_each_prefix. intros p Hp.
  apply sma_exact; [exact L|eapply nonnil_prefix; exact Hp].
Qed.

(** ** Smoothing *)
Lemma fin_fold_smooth alpha l a :
  fold_left (fun e v : xr => fadd (fmul (Fin alpha) v) (fmul (fsub (fZ 1) (Fin alpha)) e)) (map Fin l) (Fin a) =
  Fin (fold_left (fun e v => alpha * v + (1 - alpha) * e) l a).
Proof. revert a; induction l as [|x l IH]; intros a; cbn [map fold_left]; [reflexivity|]. rewrite <- IH. reflexivity. Qed.

Lemma ema_exact alpha len vs : (1 <= len)%nat -> (len = 1%nat -> alpha = 1) ->
  ema_val (Fin alpha) len (map Fin vs) = option_map Fin (Rsmooth alpha len vs).
Proof.
  intros L A1. unfold ema_val, Rsmooth. destruct (Nat.eqb_spec len 1) as [->|Q].
  - rewrite A1 by reflexivity. destruct vs as [|v vs] using rev_ind; [reflexivity|]. clear IHvs.
    rewrite map_app. cbn [map]. rewrite newest_snoc, app_length. cbn [length].
    destruct (Nat.ltb_spec (length vs + 1) 1); [lia|]. cbn [option_map]. do 2 f_equal.
    destruct vs as [|w vs]; [cbn; rewrite Rmean_1; reflexivity|]. cbn [app skipn firstn].
    rewrite fold_left_app. cbn. ring.
  - rewrite map_length. destruct (Nat.ltb_spec (length vs) len); [reflexivity|]. cbn [option_map]. f_equal.
    rewrite skipn_map, firstn_map, fin_sum, fin_nat, fin_div by (pose proof (INR_pos len L); lra).
    rewrite fin_fold_smooth. unfold Rmean. rewrite firstn_length_le by lia. reflexivity.
Qed.

Lemma rma_alpha_exact len : (1 <= len)%nat -> (rma_alpha_of len : xr) = Fin (1 / INR len).
Proof. intros L. unfold rma_alpha_of. rewrite fin_Z, fin_nat, fin_div by (pose proof (INR_pos len L); lra). reflexivity. Qed.
Lemma ema_alpha_exact len : (1 <= len)%nat -> (ema_alpha_of len : xr) = Fin (2 / (INR len + 1)).
Proof.
  intros L. unfold ema_alpha_of. rewrite !fin_Z, fin_nat, fin_add, fin_div by (pose proof (INR_pos len L); lra). reflexivity.
Qed.
Lemma rma_exact len vs : (1 <= len)%nat ->
  ema_val (rma_alpha_of len) len (map Fin vs) = option_map Fin (Rsmooth (1 / INR len) len vs).
Proof. intros L. rewrite rma_alpha_exact by exact L. apply ema_exact; [exact L|]. intros ->. cbn. lra. Qed.
Lemma ema_exact_std len vs : (1 <= len)%nat ->
  ema_val (ema_alpha_of len) len (map Fin vs) = option_map Fin (Rsmooth (2 / (INR len + 1)) len vs).
Proof. intros L. rewrite ema_alpha_exact by exact L. apply ema_exact; [exact L|]. intros ->. cbn. lra. Qed.

(** ** Bounds *)
Lemma Rsum_bounds lo hi l : all_in lo hi l -> INR (length l) * lo <= Rsum l <= INR (length l) * hi.
Proof.
  induction 1 as [|x l [A B] H IH]; [cbn; lra|]. cbn [length Rsum]. rewrite S_INR. lra.
Qed.
Lemma div_bounds lo hi s n : 0 < n -> n * lo <= s <= n * hi -> lo <= s / n <= hi.
Proof.
  intros P [A B]. split.
  - apply Rmult_le_reg_l with n; [exact P|]. unfold Rdiv. rewrite <- Rmult_assoc, (Rmult_comm n s), Rmult_assoc, Rinv_r by lra. lra.
  - apply Rmult_le_reg_l with n; [exact P|]. unfold Rdiv. rewrite <- Rmult_assoc, (Rmult_comm n s), Rmult_assoc, Rinv_r by lra. lra.
Qed.
Lemma Rmean_in lo hi l : l <> [] -> all_in lo hi l -> in_range lo hi (Rmean l).
Proof.
  intros N H. unfold in_range, Rmean. apply div_bounds; [|apply Rsum_bounds; exact H].
  apply INR_pos. destruct l; [congruence|cbn; lia].
Qed.
Lemma Rsmooth_in alpha len vs lo hi e : (1 <= len)%nat -> 0 <= alpha <= 1 ->
  all_in lo hi vs -> Rsmooth alpha len vs = Some e -> in_range lo hi e.
Proof.
  intros L A H. unfold Rsmooth. destruct (Nat.ltb_spec (length vs) len); [discriminate|].
  intros E; injection E as <-.
  assert (G : forall l a, in_range lo hi a -> all_in lo hi l ->
     in_range lo hi (fold_left (fun e v => alpha * v + (1 - alpha) * e) l a)).
  { induction l as [|x l IH]; intros a Ha Hl; [exact Ha|]. inversion Hl as [|? ? Hx Hl']; subst. cbn [fold_left].
    apply IH; [|exact Hl']. unfold in_range in *. split; nra. }
  rewrite <- (firstn_skipn len vs) in H. apply Forall_app in H. destruct H as [H1 H2].
  apply G; [|exact H2]. apply Rmean_in; [|exact H1].
  intros C. apply (f_equal (@length R)) in C. rewrite firstn_length_le in C by lia. cbn in C. lia.
Qed.

(** ** Wma *)
Lemma fin_wma_sums len vs : forall i s n, (i + length vs <= len)%nat ->
  exists s' n', wma_sums len (map Fin vs) i (Fin s) (Fin n) = (Fin s', Fin n') /\
    s' = s + INR len * Rsum (map (fun p => INR (len - fst p) * snd p) (combine (seq i (length vs)) vs)) /\
    n' = n + INR len * Rsum (map (fun k => INR (len - k)) (seq i (length vs))).
Proof.
  induction vs as [|v vs IH]; intros i s n H; cbn [map wma_sums length seq combine Rsum fst snd].
  - exists s, n. split; [reflexivity|]. split; lra.
  - cbn [length] in H. rewrite fin_nat, fin_mul, !fin_add.
    destruct (IH (S i) (s + v * INR ((len - i) * len)) (n + INR ((len - i) * len))) as (s' & n' & E & Es & En); [lia|].
    exists s', n'. split; [exact E|]. rewrite Es, En, mult_INR. split; lra.
Qed.
Lemma wsum_rev vs : forall len i, (i + length vs = len)%nat ->
  Rsum (map (fun p => INR (len - fst p) * snd p) (combine (seq i (length vs)) vs)) = Rweighted 1 (rev vs).
Proof.
  assert (W : forall l w x, Rweighted w (l ++ [x]) = Rweighted w l + INR (w + length l) * x).
  { induction l as [|y l IH]; intros w x; cbn [app Rweighted length].
    - rewrite Nat.add_0_r. lra.
    - rewrite IH. replace (S w + length l)%nat with (w + S (length l))%nat by lia. lra. }
  induction vs as [|v vs IH]; intros len i H; cbn [length seq combine map Rsum rev fst snd]; [reflexivity|].
  rewrite W, rev_length. cbn [length] in H. rewrite (IH len (S i)) by lia.
  replace (len - i)%nat with (1 + length vs)%nat by lia. lra.
Qed.
Lemma triangle_sum n : forall len i, (i + n = len)%nat ->
  Rsum (map (fun k => INR (len - k)) (seq i n)) = triangular n.
Proof.
  induction n as [|n IH]; intros len i H; cbn [seq map Rsum].
  - unfold triangular; cbn. lra.
  - rewrite (IH len (S i)) by lia. replace (len - i)%nat with (S n) by lia. unfold triangular. rewrite S_INR. lra.
Qed.
Lemma triangle_pos n : (1 <= n)%nat -> 0 < triangular n.
Proof. intros H. pose proof (INR_pos n H). unfold triangular. nra. Qed.

Lemma wma_exact_val vs len : length vs = len -> (1 <= len)%nat ->
  (let '(s, n) := wma_sums len (rev (map Fin vs)) 0 (fZ 0) (fZ 0) in fdiv s n) = Fin (Rwmean vs).
Proof.
  intros E L. rewrite <- map_rev, !fin_Z.
  destruct (fin_wma_sums len (rev vs) 0 0 0) as (s & n & Ew & Es & En); [rewrite rev_length; lia|].
  rewrite Ew. rewrite (wsum_rev (rev vs) len 0) in Es by (rewrite rev_length; lia). rewrite rev_involutive in Es.
  rewrite (triangle_sum _ len 0) in En by (rewrite rev_length; lia). rewrite rev_length, E in En.
  pose proof (INR_pos len L). pose proof (triangle_pos len L).
  rewrite fin_div by (subst n; nra). f_equal. unfold Rwmean. rewrite E, Es, En. field. split; lra.
Qed.
Lemma wma_exact len h : (1 <= len)%nat ->
  wma_out len 0 (lift h) = option_map Fin (option_map Rwmean (window len h)).
Proof.
  intros L. unfold wma_out, window. rewrite lift_length, lift_lastn, lift_all_some, Nat.add_0_l.
  destruct (Nat.leb_spec len (length h)); [|reflexivity].
  destruct (all_some (lastn len h)) as [w|] eqn:E; [|reflexivity]. cbn [option_map].
  pose proof (all_some_length _ _ E) as Q. rewrite length_lastn in Q. f_equal. apply wma_exact_val; [lia|exact L].
Qed.
Lemma Rweighted_bounds lo hi l : forall w, all_in lo hi l ->
  (INR w * INR (length l) + INR (length l) * (INR (length l) - 1) / 2) * lo <= Rweighted w l <=
  (INR w * INR (length l) + INR (length l) * (INR (length l) - 1) / 2) * hi.
Proof.
  induction l as [|x l IH]; intros w H; [cbn; lra|]. inversion H as [|? ? [A B] H']; subst.
  specialize (IH (S w) H'). cbn [Rweighted length]. rewrite !S_INR in *.
  pose proof (pos_INR w). pose proof (pos_INR (length l)). set (n := INR (length l)) in *. set (u := INR w) in *.
  split; nra.
Qed.
Lemma Rwmean_in lo hi l : l <> [] -> all_in lo hi l -> in_range lo hi (Rwmean l).
Proof.
  intros N H. assert (L : (1 <= length l)%nat) by (destruct l; [congruence|cbn; lia]).
  unfold in_range, Rwmean. apply div_bounds; [apply triangle_pos; exact L|].
  pose proof (Rweighted_bounds lo hi l 1 H) as B. unfold triangular. cbn [INR] in B. lra.
Qed.

(** ** Swma *)
Lemma swma_exact_val vs : length vs = 4%nat -> swma_mean (map Fin vs) = Fin (Rswmean vs).
Proof.
  intros L. do 4 (destruct vs as [|? vs]; [discriminate|]). destruct vs; [|discriminate].
  unfold swma_mean, Rswmean; cbn [map]. rewrite !fin_Z, !fin_div by lra.
  rewrite ?fin_mul, ?fin_add. f_equal. lra.
Qed.
Lemma swma_exact h : swma_out 0 (lift h) = option_map Fin (option_map Rswmean (window 4 h)).
Proof.
  unfold swma_out, window. rewrite lift_length, lift_lastn, lift_all_some, Nat.add_0_l.
  destruct (Nat.leb_spec 4 (length h)); [|reflexivity].
  destruct (all_some (lastn 4 h)) as [w|] eqn:E; [|reflexivity]. cbn [option_map].
  pose proof (all_some_length _ _ E) as Q. rewrite length_lastn in Q. f_equal. apply swma_exact_val. lia.
Qed.
Lemma Rswmean_in lo hi l : length l = 4%nat -> all_in lo hi l -> in_range lo hi (Rswmean l).
Proof.
  intros L H. do 4 (destruct l as [|? l]; [discriminate|]). destruct l; [|discriminate].
  repeat match goal with H : all_in _ _ (_ :: _) |- _ => inversion H as [|? ? [? ?] ?]; subst; clear H
                       | H : Forall _ (_ :: _) |- _ => inversion H as [|? ? [? ?] ?]; subst; clear H end.
  unfold in_range, Rswmean. lra.
Qed.

(** ** Extrema *)
Lemma fin_beats_max x l : beats (fun v m : xr => fltb m v) (Fin x) (map Fin l) = Fin (Rmaxl x l).
Proof.
  revert x; induction l as [|y l IH]; intros x; cbn [map Rmaxl]; [reflexivity|]. rewrite beats_cons, fin_lt.
  rewrite <- IH. f_equal. unfold Rmax. destruct (Rltb_spec x y), (Rle_dec x y); f_equal; lra.
Qed.
Lemma fin_beats_min x l : beats (fun v m : xr => fltb v m) (Fin x) (map Fin l) = Fin (Rminl x l).
Proof.
  revert x; induction l as [|y l IH]; intros x; cbn [map Rminl]; [reflexivity|]. rewrite beats_cons, fin_lt.
  rewrite <- IH. f_equal. unfold Rmin. destruct (Rltb_spec y x), (Rle_dec x y); f_equal; lra.
Qed.
Lemma fin_best_max l : best (fun v m : xr => fltb m v) (map Fin l) = option_map Fin (Rmaximum l).
Proof. destruct l as [|x l]; [reflexivity|]. cbn [map best Rmaximum option_map]. rewrite fin_beats_max. reflexivity. Qed.
Lemma fin_best_min l : best (fun v m : xr => fltb v m) (map Fin l) = option_map Fin (Rminimum l).
Proof. destruct l as [|x l]; [reflexivity|]. cbn [map best Rminimum option_map]. rewrite fin_beats_min. reflexivity. Qed.

(** ** Dev, Stdev *)
Lemma map_fin_abs m vs : map (fun v : xr => fabs (fsub v (Fin m))) (map Fin vs) =
  map Fin (map (fun v => Rabs (v - m)) vs).
Proof. rewrite !map_map. apply map_ext. reflexivity. Qed.
Lemma dev_val_exact vs : vs <> [] -> dev_val (Fin (Rmean vs)) (map Fin vs) = Fin (Rmad vs).
Proof.
  intros N. unfold dev_val. rewrite map_fin_abs, fin_sum, map_length, fin_nat.
  rewrite fin_div; [|destruct vs; [congruence|]; cbn [length]; rewrite S_INR; pose proof (pos_INR (length vs)); lra].
  unfold Rmad, Rmean. rewrite map_length. reflexivity.
Qed.
Lemma dev_exact len h : (2 <= len)%nat -> h <> [] ->
  dev_out len (lift h) = option_map Fin (option_map Rmad (window len h)).
Proof.
  intros L N. unfold dev_out. destruct (Nat.eqb_spec len 1); [lia|].
  rewrite lift_window, rsum_exact by (assumption || lia). destruct (window len h) as [w|] eqn:E; [|reflexivity].
  cbn [option_map]. f_equal. rewrite (window_present _ _ _ E). pose proof (window_length _ _ _ E) as Lw.
  rewrite fin_nat, fin_div by (pose proof (INR_pos len ltac:(lia)); lra).
  rewrite <- (dev_val_exact w) by (destruct w; [cbn in Lw; lia|discriminate]).
  unfold Rmean. rewrite Lw. reflexivity.
Qed.

(** the documented snapping: a deviation of at most 1e-10 counts as zero. *)
Definition snap (d : R) : R := if Rlt_dec (Rabs d) (1 / 10000000000) then 0 else d.
Definition Rssd_snap (l : list R) : R := Rsum (map (fun v => (snap (v - Rmean l)) ^ 2) l).

Lemma fin_stdev_sum v m : stdev_compute_sum (Fin v) (fneg (Fin m)) = Fin (snap (v - m)).
Proof.
  unfold stdev_compute_sum, compare_with_precision. rewrite fin_neg, fin_add, fin_Z, fin_sub, fin_abs, fin_lit by lia.
  rewrite fin_lt. unfold snap. replace (v + - m - 0) with (v - m) by lra.
  destruct (Rltb_spec (Rabs (v - m)) (1 / 10000000000)), (Rlt_dec (Rabs (v - m)) (1 / 10000000000)); try lra;
    f_equal; lra.
Qed.
Lemma Rsum_nonneg l : Forall (fun x => 0 <= x) l -> 0 <= Rsum l.
Proof. induction 1; cbn; lra. Qed.
Lemma Rssd_snap_nonneg l : 0 <= Rssd_snap l.
Proof. unfold Rssd_snap. apply Rsum_nonneg. apply Forall_forall. intros x Hx. apply in_map_iff in Hx. destruct Hx as (v & <- & _). apply pow2_ge_0. Qed.
Lemma stdev_exact (biased : bool) len h : (2 <= len)%nat -> h <> [] ->
  stdev_out biased len (lift h) =
  option_map Fin (option_map (fun w => sqrt (Rssd_snap w / (INR len - if biased then 0 else 1))) (window len h)).
Proof.
  intros L N. unfold stdev_out. destruct (Nat.eqb_spec len 1); [lia|].
  rewrite lift_window, rsum_exact by (assumption || lia). destruct (window len h) as [w|] eqn:E; [|reflexivity].
  cbn [option_map]. f_equal. rewrite (window_present _ _ _ E). pose proof (window_length _ _ _ E) as Lw.
  rewrite fin_nat, fin_div by (pose proof (INR_pos len ltac:(lia)); lra).
  unfold stdev_val. rewrite map_length, Lw.
  assert (M : map (fun v : xr => fsq (stdev_compute_sum v (fneg (Fin (Rsum w / INR len))))) (map Fin w) =
              map Fin (map (fun v => (snap (v - Rmean w)) ^ 2) w)).
  { rewrite !map_map. apply map_ext. intros v. rewrite fin_stdev_sum, fin_sq. unfold Rmean. rewrite Lw. f_equal. ring. }
  rewrite M, fin_sum. fold (Rssd_snap w).
  assert (P : 0 < INR len - (if biased then 0 else 1)).
  { assert (2 <= INR len) by (change 2 with (INR 2); apply le_INR; lia). destruct biased; lra. }
  assert (D : (fnat (if biased then len else (len - 1)%nat) : xr) = Fin (INR len - (if biased then 0 else 1))).
  { rewrite fin_nat. destruct biased; f_equal; [lra|]. rewrite minus_INR by lia. cbn; lra. }
  rewrite D, fin_div by lra. rewrite fin_sqrt; [reflexivity|].
  apply Rmult_le_pos; [apply Rssd_snap_nonneg|]. left. apply Rinv_0_lt_compat. exact P.
Qed.
