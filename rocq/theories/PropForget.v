(** * PropForget: C104 (how fast averages forget their start), C105 (averages
    are monotone and do not amplify errors in their inputs). *)
From Flocq Require Import Core IEEE754.BinarySingleNaN.
From Verif Require Import PTa4 PExact3 Inst PropTa1 PropTa2 PropTa3 PropScale PropMirror PropRound.
From Coq Require Import Lra Psatz.
Local Open Scope R_scope.

(** ** C104 *)
(** Fed with [xs], the component now reports [v]. *)
Definition reports {F} {NF : Num F} {S} (new : res S) (step : ctx F -> S -> option F -> res (S * option F)) c xs (v : F) : Prop :=
  exists os, run_new new step c xs = Ok os /\ newest os = Some (Some v).

Lemma smooth_app alpha len xs ts : (len <= length xs)%nat ->
  Rsmooth alpha len (xs ++ ts) = option_map (fun e => fold_left (fun e v => alpha * v + (1 - alpha) * e) ts e) (Rsmooth alpha len xs).
Proof.
  intros L. unfold Rsmooth. rewrite app_length. destruct (Nat.ltb_spec (length xs + length ts) len); [lia|].
  destruct (Nat.ltb_spec (length xs) len); [lia|]. cbn [option_map]. f_equal.
  rewrite firstn_app, skipn_app. replace (len - length xs)%nat with 0%nat by lia. cbn [firstn skipn]. rewrite app_nil_r, fold_left_app. reflexivity.
Qed.
Lemma fold_diff alpha ts : forall a b,
  fold_left (fun e v => alpha * v + (1 - alpha) * e) ts a - fold_left (fun e v => alpha * v + (1 - alpha) * e) ts b = (1 - alpha) ^ length ts * (a - b).
Proof. induction ts as [|t ts IH]; intros a b; cbn [fold_left length pow]; [ring|]. rewrite IH. ring. Qed.
Lemma smooth_some alpha len xs : (len <= length xs)%nat -> exists e, Rsmooth alpha len xs = Some e.
Proof. intros L. unfold Rsmooth. destruct (Nat.ltb_spec (length xs) len); [lia|]. eexists; reflexivity. Qed.
Lemma newest_lift_full f (xs : list R) : xs <> [] -> newest (lift (each_prefix f xs)) = Some (option_map Fin (f xs)).
Proof.
  intros N. unfold lift. rewrite newest_map. destruct xs as [|x xs _] using rev_ind; [contradiction|]. rewrite each_prefix_snoc, newest_snoc. reflexivity.
Qed.
Lemma smooth_reports {S} (new : res S) step alpha len c xs v : (1 <= len)%nat ->
  (forall c n vs, run_new new step c (repeat None n ++ full vs) = Ok (repeat None n ++ lift (each_prefix (Rsmooth alpha len) vs))) ->
  Rsmooth alpha len xs = Some v -> reports new step c (full xs) (Fin v).
Proof.
  intros L R E. specialize (R c 0%nat xs). cbn [repeat app] in R. eexists. split; [exact R|].
  rewrite newest_lift_full, E; [reflexivity|]. intros ->. unfold Rsmooth in E. destruct len; [lia|discriminate E].
Qed.
Lemma smooth_forgets {S} (new : res S) step alpha len : (1 <= len)%nat ->
  (forall c n vs, run_new new step c (repeat None n ++ full vs) = Ok (repeat None n ++ lift (each_prefix (Rsmooth alpha len) vs))) ->
  forall c1 c2 xs ys ts, (len <= length xs)%nat -> (len <= length ys)%nat ->
  exists a0 b0 a b,
    reports new step c1 (full xs) (Fin a0) /\ reports new step c2 (full ys) (Fin b0) /\
    reports new step c1 (full (xs ++ ts)) (Fin a) /\ reports new step c2 (full (ys ++ ts)) (Fin b) /\
    a - b = (1 - alpha) ^ length ts * (a0 - b0).
Proof.
  intros L R c1 c2 xs ys ts LX LY.
  destruct (smooth_some alpha len xs LX) as [a0 A0]. destruct (smooth_some alpha len ys LY) as [b0 B0].
  pose proof (smooth_app alpha len xs ts LX) as A. pose proof (smooth_app alpha len ys ts LY) as B. rewrite A0 in A. rewrite B0 in B. cbn [option_map] in A, B.
  exists a0, b0. do 2 eexists. do 4 (split; [eapply smooth_reports; eassumption|]). apply fold_diff.
Qed.
(** Two histories that end with the same [k] values: the averages differ by
    exactly (1 - alpha)^k times what they differed by before. *)
Theorem C104_ema len (c1 c2 : ctx xr) xs ys ts : (1 <= len)%nat -> (len <= length xs)%nat -> (len <= length ys)%nat ->
  exists a0 b0 a b,
    reports (ema_new len) ema_step c1 (full xs) (Fin a0) /\ reports (ema_new len) ema_step c2 (full ys) (Fin b0) /\
    reports (ema_new len) ema_step c1 (full (xs ++ ts)) (Fin a) /\ reports (ema_new len) ema_step c2 (full (ys ++ ts)) (Fin b) /\
    a - b = (1 - 2 / (INR len + 1)) ^ length ts * (a0 - b0).
Proof. intros L. apply (smooth_forgets _ _ _ len L). intros. apply C11_ema_closed_form, L. Qed.
Theorem C104_rma len (c1 c2 : ctx xr) xs ys ts : (1 <= len)%nat -> (len <= length xs)%nat -> (len <= length ys)%nat ->
  exists a0 b0 a b,
    reports (rma_new len) rma_step c1 (full xs) (Fin a0) /\ reports (rma_new len) rma_step c2 (full ys) (Fin b0) /\
    reports (rma_new len) rma_step c1 (full (xs ++ ts)) (Fin a) /\ reports (rma_new len) rma_step c2 (full (ys ++ ts)) (Fin b) /\
    a - b = (1 - 1 / INR len) ^ length ts * (a0 - b0).
Proof. intros L. apply (smooth_forgets _ _ _ len L). intros. apply C12_rma_closed_form, L. Qed.

Lemma smooth_abs alpha len xs e M : 0 <= alpha <= 1 -> 0 <= M -> (1 <= len)%nat -> Forall (fun x => Rabs x <= M) xs ->
  Rsmooth alpha len xs = Some e -> Rabs e <= M.
Proof.
  intros A MP L B. unfold Rsmooth. destruct (Nat.ltb_spec (length xs) len) as [|G]; [discriminate|]. intros E. injection E as <-.
  assert (B1 : Forall (fun x => Rabs x <= M) (firstn len xs)) by (apply Forall_forall; intros x I; rewrite Forall_forall in B; apply B; rewrite <- (firstn_skipn len xs); apply in_or_app; left; exact I).
  assert (B2 : Forall (fun x => Rabs x <= M) (skipn len xs)) by (apply Forall_forall; intros x I; rewrite Forall_forall in B; apply B; rewrite <- (firstn_skipn len xs); apply in_or_app; right; exact I).
  assert (Q : Rabs (Rmean (firstn len xs)) <= M).
  { assert (LL : length (firstn len xs) = len) by (rewrite firstn_length; lia). unfold Rmean. rewrite LL.
    assert (S0 : Rabs (Rsum (firstn len xs)) <= INR len * M).
    { rewrite <- LL at 2. clear LL. induction B1 as [|x l X _ IH]; cbn [Rsum length]; [rewrite Rabs_R0; unfold INR; lra|].
      rewrite S_INR. pose proof (Rabs_triang x (Rsum l)). lra. }
    assert (P : 0 < INR len) by (apply lt_0_INR; lia). unfold Rdiv. rewrite Rabs_mult, (Rabs_pos_eq (/ INR len)) by (left; apply Rinv_0_lt_compat, P).
    apply Rmult_le_reg_r with (INR len); [exact P|]. rewrite Rmult_assoc, Rinv_l by lra. lra. }
  revert Q. generalize (Rmean (firstn len xs)). induction B2 as [|x l X _ IH]; intros q Q; [exact Q|]. cbn [fold_left]. apply IH.
  pose proof (Rabs_triang (alpha * x) ((1 - alpha) * q)) as T. rewrite !Rabs_mult, (Rabs_pos_eq alpha), (Rabs_pos_eq (1 - alpha)) in T by lra. nra.
Qed.

(** The f64 program: after [k] common values the two averages are within
    2 M (1 - alpha)^k plus twice the rounding error of C98, whatever the two
    beginnings were (finite, of magnitude at most [M]). *)
Section C104f.
  Variable log10 : f64 -> f64.
  #[local] Instance N104 : Num f64 := IEEE log10.
  Lemma accurate_newest err exact vs os e : accurate err exact 0 vs os -> vs <> [] -> exact (map B2R vs) = Some e ->
    exists v, newest os = Some (Some v) /\ is_finite v = true /\ Rabs (B2R v - e) <= err.
  Proof.
    intros (LO & _ & A) N E. specialize (A (length vs - 1)%nat). assert (H : (0 < length vs)%nat) by (destruct vs; [contradiction|cbn; lia]).
    specialize (A ltac:(lia)). assert (Q : firstn (S (length vs - 1)) (map B2R vs) = map B2R vs) by (apply firstn_all2; rewrite map_length; clear - H; change (length vs <= S (length vs - 1))%nat; change (0 < length vs)%nat in H; lia).
    rewrite Q, E in A. destruct A as (v & X & Y & Z). exists v. split; [|split; assumption].
    unfold newest. rewrite LO. exact X.
  Qed.
  Lemma close_forget {S} (new : res S) step alpha len err M : 0 <= alpha <= 1 -> (1 <= len)%nat -> magnitude M ->
    (forall c k vs, bounded_by M vs -> exists os, run_new new step c (repeat None k ++ map Some vs) = Ok os /\ accurate err (Rsmooth alpha len) k vs os) ->
    forall c1 c2 xs ys ts, (len <= length xs)%nat -> (len <= length ys)%nat -> bounded_by M (xs ++ ts) -> bounded_by M (ys ++ ts) ->
    exists a b : f64,
      reports new step c1 (map Some (xs ++ ts)) a /\ reports new step c2 (map Some (ys ++ ts)) b /\
      is_finite a = true /\ is_finite b = true /\
      Rabs (B2R a - B2R b) <= (1 - alpha) ^ length ts * (2 * M) + 2 * err.
  Proof.
    intros AL L HM C c1 c2 xs ys ts LX LY BX BY.
    assert (HA : forall c zs, (len <= length zs)%nat -> bounded_by M (zs ++ ts) ->
      exists v z, reports new step c (map Some (zs ++ ts)) v /\ is_finite v = true /\ Rabs (B2R v - z) <= err /\
        exists z0, Rabs z0 <= M /\ z = fold_left (fun e x => alpha * x + (1 - alpha) * e) (map B2R ts) z0).
    { intros c zs LZ B. destruct (C c 0%nat (zs ++ ts) B) as (os & RO & A). cbn [repeat app] in RO.
      assert (LM : (len <= length (map B2R zs))%nat) by (rewrite map_length; exact LZ).
      destruct (smooth_some alpha len _ LM) as [z0 Z0].
      pose proof (smooth_app alpha len (map B2R zs) (map B2R ts) LM) as SA. rewrite Z0 in SA. cbn [option_map] in SA. rewrite <- map_app in SA.
      assert (NE : zs ++ ts <> []) by (destruct zs; [cbn in LZ; lia|discriminate]). destruct (accurate_newest err _ (zs ++ ts) os _ A NE SA) as (v & X & Y & Z).
      exists v. eexists. split; [exists os; split; assumption|]. split; [exact Y|]. split; [exact Z|]. exists z0. split; [|reflexivity].
      apply (smooth_abs alpha len (map B2R zs)); try assumption; [destruct HM as [HM _]; apply Rle_trans with (2 := HM); apply bpow_ge_0|].
      apply Forall_forall. intros x I. apply in_map_iff in I. destruct I as (w & <- & I). unfold bounded_by in B. rewrite Forall_forall in B. apply B, in_or_app. left. exact I. }
    destruct (HA c1 xs LX BX) as (a & za & Ra & Fa & Ea & a0 & A0 & ->). destruct (HA c2 ys LY BY) as (b & zb & Rb & Fb & Eb & b0 & B0 & ->).
    exists a, b. do 4 (split; [assumption|]).
    pose proof (fold_diff alpha (map B2R ts) a0 b0) as D. rewrite map_length in D.
    set (za := fold_left _ _ a0) in *. set (zb := fold_left _ _ b0) in *.
    replace (B2R a - B2R b) with ((B2R a - za) + (za - zb) + (zb - B2R b)) by ring.
    assert (T : Rabs (za - zb) <= (1 - alpha) ^ length ts * (2 * M)).
    { rewrite D, Rabs_mult, Rabs_pos_eq by (apply pow_le; lra). apply Rmult_le_compat_l; [apply pow_le; lra|].
      pose proof (Rabs_triang a0 (- b0)) as Y. rewrite Rabs_Ropp in Y. unfold Rminus. lra. }
    pose proof (Rabs_triang (B2R a - za + (za - zb)) (zb - B2R b)). pose proof (Rabs_triang (B2R a - za) (za - zb)). pose proof (Rabs_minus_sym zb (B2R b)). lra.
  Qed.
  Theorem C104_ema_f64 len (c1 c2 : ctx f64) xs ys ts M : (2 <= len)%nat -> (Z.of_nat len <= 2 ^ 32)%Z -> magnitude M ->
    (len <= length xs)%nat -> (len <= length ys)%nat -> bounded_by M (xs ++ ts) -> bounded_by M (ys ++ ts) ->
    exists a b : f64,
      reports (ema_new len) ema_step c1 (map Some (xs ++ ts)) a /\ reports (ema_new len) ema_step c2 (map Some (ys ++ ts)) b /\
      is_finite a = true /\ is_finite b = true /\
      Rabs (B2R a - B2R b) <= (1 - 2 / (INR len + 1)) ^ length ts * (2 * M) + (INR len + 1) * M / 2 ^ 48.
  Proof.
    intros L L' HM LX LY BX BY. assert (P : 2 <= INR len) by (apply (le_INR 2); exact L).
    replace ((INR len + 1) * M / 2 ^ 48) with (2 * ((INR len + 1) * M / 2 ^ 49)) by (change (2 ^ 49) with (2 * 2 ^ 48); field; apply pow_nonzero; lra).
    apply (close_forget (ema_new len) ema_step _ len); try assumption; [|lia|intros; apply C98_ema; assumption].
    split; [apply Rlt_le, Rdiv_lt_0_compat; lra|]. apply Rmult_le_reg_r with (INR len + 1); [lra|]. unfold Rdiv. rewrite Rmult_assoc, Rinv_l; lra.
  Qed.
  Theorem C104_rma_f64 len (c1 c2 : ctx f64) xs ys ts M : (2 <= len)%nat -> (Z.of_nat len <= 2 ^ 32)%Z -> magnitude M ->
    (len <= length xs)%nat -> (len <= length ys)%nat -> bounded_by M (xs ++ ts) -> bounded_by M (ys ++ ts) ->
    exists a b : f64,
      reports (rma_new len) rma_step c1 (map Some (xs ++ ts)) a /\ reports (rma_new len) rma_step c2 (map Some (ys ++ ts)) b /\
      is_finite a = true /\ is_finite b = true /\
      Rabs (B2R a - B2R b) <= (1 - 1 / INR len) ^ length ts * (2 * M) + INR len * M / 2 ^ 47.
  Proof.
    intros L L' HM LX LY BX BY. assert (P : 2 <= INR len) by (apply (le_INR 2); exact L).
    replace (INR len * M / 2 ^ 47) with (2 * (INR len * M / 2 ^ 48)) by (change (2 ^ 48) with (2 * 2 ^ 47); field; apply pow_nonzero; lra).
    apply (close_forget (rma_new len) rma_step _ len); try assumption; [|lia|intros; apply C98_rma; assumption].
    split; [apply Rlt_le, Rdiv_lt_0_compat; lra|]. apply Rmult_le_reg_r with (INR len); [lra|]. unfold Rdiv. rewrite Rmult_assoc, Rinv_l; lra.
  Qed.
End C104f.

(** ** C105: averages keep the order of their inputs and do not amplify errors

    [beside d xs ys]: the same bars carry a value, and wherever they do the
    first is at most [d] above the second.  With d = 0 this is pointwise order;
    used in both directions it says the two inputs differ by at most [d]. *)
Definition at_most_over (d : R) (x y : option R) : Prop :=
  match x, y with None, None => True | Some a, Some b => a <= b + d | _, _ => False end.
Definition beside (d : R) (xs ys : list (option R)) : Prop := Forall2 (at_most_over d) xs ys.
(** Whatever the inputs, the outputs are no further apart than [k] times the inputs. *)
Definition follows (k : R) {S} (new : res S) (step : ctx xr -> S -> option xr -> res (S * option xr)) : Prop :=
  forall (c : ctx xr) d xs ys, c_index c = 0%nat -> beside d xs ys ->
  exists os ps, run_new new step c (lift xs) = Ok (lift os) /\ run_new new step c (lift ys) = Ok (lift ps) /\ beside (k * d) os ps.

Lemma Forall2_len {A B} (P : A -> B -> Prop) xs ys : Forall2 P xs ys -> length xs = length ys.
Proof. induction 1; cbn; congruence. Qed.
Lemma Forall2_skipn {A B} (P : A -> B -> Prop) n : forall xs ys, Forall2 P xs ys -> Forall2 P (skipn n xs) (skipn n ys).
Proof. induction n as [|n IH]; intros xs ys H; [exact H|]. destruct H; [constructor|]. apply IH, H0. Qed.
Lemma Forall2_firstn {A B} (P : A -> B -> Prop) n : forall xs ys, Forall2 P xs ys -> Forall2 P (firstn n xs) (firstn n ys).
Proof. induction n as [|n IH]; intros xs ys H; [constructor|]. destruct H; constructor; [assumption|]. apply IH, H0. Qed.
Lemma Forall2_lastn {A B} (P : A -> B -> Prop) n xs ys : Forall2 P xs ys -> Forall2 P (lastn n xs) (lastn n ys).
Proof. intros H. unfold lastn. rewrite (Forall2_len _ _ _ H). apply Forall2_skipn, H. Qed.
Lemma Forall2_each_prefix {A B C D} (P : A -> B -> Prop) (Q : C -> D -> Prop) f g : (forall xs ys, Forall2 P xs ys -> xs <> [] -> Q (f xs) (g ys)) ->
  forall xs ys, Forall2 P xs ys -> Forall2 Q (each_prefix f xs) (each_prefix g ys).
Proof.
  intros H xs. induction xs as [|x xs IH] using rev_ind; intros ys F.
  - inversion F. constructor.
  - destruct ys as [|y ys _] using rev_ind; [apply Forall2_len in F; rewrite app_length in F; cbn in F; lia|].
    assert (L : length xs = length ys) by (apply Forall2_len in F; rewrite !app_length in F; cbn in F; lia).
    pose proof F as F0. apply Forall2_app_inv_l in F0. destruct F0 as (l1 & l2 & F1 & F2 & E).
    assert (L1 : length l1 = length ys) by (rewrite <- L; symmetry; apply (Forall2_len _ _ _ F1)).
    apply app_inj in E as [<- _] || (assert (E1 : ys = l1) by (apply (f_equal (firstn (length ys))) in E; rewrite firstn_app, Nat.sub_diag, firstn_all, app_nil_r in E; rewrite <- L1, firstn_app, Nat.sub_diag, firstn_all, app_nil_r in E; exact E); subst l1).
    rewrite !each_prefix_snoc. apply Forall2_app; [apply IH, F1|]. constructor; [|constructor]. apply H; [exact F|]. destruct xs; discriminate.
Qed.
Lemma follows_intro {S} (new : res S) step k (f : list (option R) -> option R) :
  (forall c xs, c_index c = 0%nat -> run_new new step c (lift xs) = Ok (lift (each_prefix f xs))) ->
  (forall d xs ys, beside d xs ys -> xs <> [] -> at_most_over (k * d) (f xs) (f ys)) -> follows k new step.
Proof.
  intros R E c d xs ys C B. exists (each_prefix f xs), (each_prefix f ys). split; [apply R, C|]. split; [apply R, C|].
  eapply Forall2_each_prefix; [|exact B]. intros. apply E; assumption.
Qed.
Definition over (d : R) (a b : R) : Prop := a <= b + d.
Lemma beside_window d len xs ys : beside d xs ys ->
  match window len xs, window len ys with None, None => True | Some v, Some w => Forall2 (over d) v w /\ length v = len | _, _ => False end.
Proof.
  intros B. pose proof (Forall2_len _ _ _ B) as L. pose proof (window_length len xs) as WL. unfold window in *. rewrite <- L. destruct (len <=? length xs)%nat; [|exact I].
  assert (X : match all_some (lastn len xs), all_some (lastn len ys) with None, None => True | Some v, Some w => Forall2 (over d) v w | _, _ => False end).
  { generalize (Forall2_lastn _ len _ _ B). generalize (lastn len xs), (lastn len ys). clear. induction 1 as [|x y l m H _ IH]; [constructor|].
    destruct x as [a|], y as [b|]; cbn in H |- *; try contradiction; [|exact I].
    destruct (all_some l), (all_some m); try contradiction; [|exact I]. constructor; [exact H|exact IH]. }
  destruct (all_some (lastn len xs)), (all_some (lastn len ys)); try contradiction; [|exact I]. split; [exact X|]. apply WL. reflexivity.
Qed.
Lemma Rsum_over d v w : Forall2 (over d) v w -> Rsum v <= Rsum w + INR (length v) * d.
Proof. induction 1 as [|x y v w H _ IH]; [cbn; lra|]. cbn [Rsum length]. rewrite S_INR. unfold over in H. lra. Qed.
Lemma Rmean_over d v w : v <> [] -> Forall2 (over d) v w -> Rmean v <= Rmean w + d.
Proof.
  intros N H. pose proof (Rsum_over _ _ _ H) as S0. pose proof (Forall2_len _ _ _ H) as L. unfold Rmean. rewrite <- L.
  assert (P : 0 < INR (length v)) by (apply lt_0_INR; destruct v; [contradiction|cbn; lia]).
  apply Rmult_le_reg_r with (INR (length v)); [exact P|]. unfold Rdiv. rewrite Rmult_plus_distr_r, !Rmult_assoc, !Rinv_l by lra. lra.
Qed.
Lemma Rweighted_over d v w : Forall2 (over d) v w -> forall k, Rweighted k v <= Rweighted k w + d * Rweighted k (map (fun _ => 1) v).
Proof.
  induction 1 as [|x y v w H _ IH]; intros k; [cbn; lra|]. cbn [Rweighted map]. specialize (IH (S k)). unfold over in H.
  pose proof (pos_INR k). nra.
Qed.
Lemma Rwmean_over d v w : v <> [] -> Forall2 (over d) v w -> Rwmean v <= Rwmean w + d.
Proof.
  intros N H. pose proof (Rweighted_over _ _ _ H 1%nat) as S0. pose proof (Forall2_len _ _ _ H) as L.
  assert (O : Rweighted 1 (map (fun _ => 1) v) = triangular (length v)).
  { assert (G : forall l k, Rweighted k (map (fun _ : R => 1) l) = INR k * INR (length l) + INR (length l) * (INR (length l) - 1) / 2).
    { induction l as [|x l IH]; intros k; [cbn; lra|]. cbn [map Rweighted length]. rewrite IH, !S_INR. lra. }
    rewrite G. unfold triangular. cbn [INR]. lra. }
  rewrite O in S0. unfold Rwmean. rewrite <- L.
  assert (P : 0 < triangular (length v)) by (apply triangle_pos; destruct v; [contradiction|cbn; lia]).
  apply Rmult_le_reg_r with (triangular (length v)); [exact P|]. unfold Rdiv. rewrite Rmult_plus_distr_r, !Rmult_assoc, !Rinv_l by lra. lra.
Qed.
Lemma window_follows {S} (new : res S) step (len : nat) k (g : list R -> R) :
  (forall c xs, c_index c = 0%nat -> run_new new step c (lift xs) = Ok (lift (each_prefix (fun h => option_map g (window len h)) xs))) ->
  (forall d v w, length v = len -> Forall2 (over d) v w -> g v <= g w + k * d) -> follows k new step.
Proof.
  intros R E. eapply follows_intro; [exact R|]. intros d xs ys B _. cbn beta. pose proof (beside_window d len xs ys B) as W.
  destruct (window len xs), (window len ys); try contradiction; [|exact I]. destruct W as [W L]. cbn. apply E; assumption.
Qed.
(** A running sum is off by at most [len] times the error of its inputs. *)
Theorem C105_sum len : (1 <= len)%nat -> follows (INR len) (sum_new len) sum_step.
Proof. intros L. eapply window_follows; [intros; apply sum_run_exact, L|]. intros d v w <- H. apply Rsum_over, H. Qed.
Theorem C105_sma len : (1 <= len)%nat -> follows 1 (sma_new len) sma_step.
Proof.
  intros L. eapply window_follows; [intros; apply sma_run_exact, L|]. intros d v w E H. rewrite Rmult_1_l. apply Rmean_over; [|exact H].
  intros ->. cbn in E. lia.
Qed.
Theorem C105_wma len : (1 <= len)%nat -> follows 1 (wma_new len) wma_step.
Proof.
  intros L. eapply window_follows; [intros; apply wma_run_exact; assumption|]. intros d v w E H. rewrite Rmult_1_l. apply Rwmean_over; [|exact H].
  intros ->. cbn in E. lia.
Qed.
Theorem C105_swma : follows 1 swma_new swma_step.
Proof.
  eapply window_follows; [intros; apply swma_run_exact; assumption|]. intros d v w E H. rewrite Rmult_1_l. unfold over in H.
  destruct v as [|a1 [|a2 [|a3 [|a4 [|]]]]]; try discriminate E.
  repeat match goal with X : Forall2 _ (_ :: _) _ |- _ => inversion X; subst; clear X | X : Forall2 _ [] _ |- _ => inversion X; subst; clear X end.
  cbn. lra.
Qed.
Lemma beside_present d xs ys : beside d xs ys -> Forall2 (over d) (present xs) (present ys).
Proof. induction 1 as [|x y xs ys H _ IH]; [constructor|]. destruct x, y; cbn in H |- *; try contradiction; [constructor; assumption|exact IH]. Qed.
Lemma Rmaxl_over d v w : Forall2 (over d) v w -> forall x y, over d x y -> Rmaxl x v <= Rmaxl y w + d.
Proof.
  induction 1 as [|a b v w H _ IH]; intros x y O; [exact O|]. cbn [Rmaxl]. apply IH. unfold over in *.
  unfold Rmax. destruct (Rle_dec x a), (Rle_dec y b); lra.
Qed.
Lemma Rminl_over d v w : Forall2 (over d) v w -> forall x y, over d x y -> Rminl x v <= Rminl y w + d.
Proof.
  induction 1 as [|a b v w H _ IH]; intros x y O; [exact O|]. cbn [Rminl]. apply IH. unfold over in *.
  unfold Rmin. destruct (Rle_dec x a), (Rle_dec y b); lra.
Qed.
Theorem C105_highest len : (1 <= len)%nat -> follows 1 (highest_new len) highest_step.
Proof.
  intros L. eapply follows_intro; [intros; apply highest_run_lift; assumption|]. intros d xs ys B _. cbn beta. rewrite Rmult_1_l.
  rewrite <- (Forall2_len _ _ _ B). destruct (_ <=? _)%nat; [|exact I].
  pose proof (beside_present _ _ _ (Forall2_lastn _ len _ _ B)) as P. destruct P; cbn; [exact I|]. apply Rmaxl_over; assumption.
Qed.
Theorem C105_lowest len : (1 <= len)%nat -> follows 1 (lowest_new len) lowest_step.
Proof.
  intros L. eapply follows_intro; [intros; apply lowest_run_lift; assumption|]. intros d xs ys B _. cbn beta. rewrite Rmult_1_l.
  rewrite <- (Forall2_len _ _ _ B). destruct (_ <=? _)%nat; [|exact I].
  pose proof (beside_present _ _ _ (Forall2_lastn _ len _ _ B)) as P. destruct P; cbn; [exact I|]. apply Rminl_over; assumption.
Qed.
Lemma smooth_over alpha len d v w : 0 <= alpha <= 1 -> (1 <= len)%nat -> Forall2 (over d) v w -> at_most_over d (Rsmooth alpha len v) (Rsmooth alpha len w).
Proof.
  intros A L H. unfold Rsmooth. rewrite <- (Forall2_len _ _ _ H). destruct (Nat.ltb_spec (length v) len) as [|G]; [exact I|]. cbn.
  assert (Q : Rmean (firstn len v) <= Rmean (firstn len w) + d).
  { apply Rmean_over; [|apply Forall2_firstn, H]. intros E. apply (f_equal (@length R)) in E. rewrite firstn_length in E. cbn in E. lia. }
  revert Q. generalize (Rmean (firstn len v)), (Rmean (firstn len w)). generalize (Forall2_skipn _ len _ _ H). generalize (skipn len v), (skipn len w).
  induction 1 as [|x y l m O _ IH]; intros a b Q; [exact Q|]. cbn [fold_left]. apply IH. unfold over in O. nra.
Qed.
Lemma smooth_follows {S} (new : res S) step alpha len : 0 <= alpha <= 1 -> (1 <= len)%nat ->
  (forall c n vs, run_new new step c (repeat None n ++ full vs) = Ok (repeat None n ++ lift (each_prefix (Rsmooth alpha len) vs))) ->
  forall (c : ctx xr) n d vs ws, Forall2 (over d) vs ws -> exists os ps,
    run_new new step c (repeat None n ++ full vs) = Ok (lift os) /\ run_new new step c (repeat None n ++ full ws) = Ok (lift ps) /\ beside d os ps.
Proof.
  intros A L R c n d vs ws H. exists (repeat None n ++ each_prefix (Rsmooth alpha len) vs), (repeat None n ++ each_prefix (Rsmooth alpha len) ws).
  rewrite !R, !lift_nones. split; [reflexivity|]. split; [reflexivity|]. apply Forall2_app.
  - induction n; constructor; [exact I|assumption].
  - eapply Forall2_each_prefix; [|exact H]. intros. apply smooth_over; assumption.
Qed.
Theorem C105_ema len (c : ctx xr) n d vs ws : (1 <= len)%nat -> Forall2 (over d) vs ws -> exists os ps,
  run_new (ema_new len) ema_step c (repeat None n ++ full vs) = Ok (lift os) /\ run_new (ema_new len) ema_step c (repeat None n ++ full ws) = Ok (lift ps) /\ beside d os ps.
Proof.
  intros L. apply (smooth_follows (ema_new len) ema_step (2 / (INR len + 1)) len); [|exact L|intros; apply C11_ema_closed_form, L].
  assert (P : 1 <= INR len) by (apply (le_INR 1); exact L). split; [apply Rlt_le, Rdiv_lt_0_compat; lra|].
  apply Rmult_le_reg_r with (INR len + 1); [lra|]. unfold Rdiv. rewrite Rmult_assoc, Rinv_l; lra.
Qed.
Theorem C105_rma len (c : ctx xr) n d vs ws : (1 <= len)%nat -> Forall2 (over d) vs ws -> exists os ps,
  run_new (rma_new len) rma_step c (repeat None n ++ full vs) = Ok (lift os) /\ run_new (rma_new len) rma_step c (repeat None n ++ full ws) = Ok (lift ps) /\ beside d os ps.
Proof.
  intros L. apply (smooth_follows (rma_new len) rma_step (1 / INR len) len); [|exact L|intros; apply C12_rma_closed_form, L].
  assert (P : 1 <= INR len) by (apply (le_INR 1); exact L). split; [apply Rlt_le, Rdiv_lt_0_compat; lra|].
  apply Rmult_le_reg_r with (INR len); [lra|]. unfold Rdiv. rewrite Rmult_assoc, Rinv_l; lra.
Qed.

(** In f64, overflow and NaN included: [ordered xs ys] says the same bars carry
    a value and nowhere is the first greater than the second. *)
From Verif Require Import PMono PIeee PTa1 PTa2.
Definition not_greater (x y : option f64) : Prop :=
  match x, y with None, None => True | Some a, Some b => Bltb b a = false | _, _ => False end.
Definition ordered (xs ys : list (option f64)) : Prop := Forall2 not_greater xs ys.
Section C105f.
  Variable log10 : f64 -> f64.
  #[local] Instance N105 : Num f64 := IEEE log10.
  Notation z64 := (@fZ f64 N105).
  Notation n64 := (@fnat f64 N105).
  Lemma positive_complement (a : f64) : is_finite a = true -> 0 <= B2R a <= 1 -> unsigned (fsub (z64 1) a).
  Proof.
    intros Fa Wa. destruct (f64_ofZ_correct 1 ltac:(lia)) as [E1 F1]. right.
    pose proof (Bminus_correct 53 1024 _ _ mode_NE (z64 1) a F1 Fa) as C. change (B2R (z64 1)) with (B2R (f64_ofZ 1)) in C. rewrite E1 in C.
    rewrite Rlt_bool_true in C.
    - destruct C as (_ & _ & S0). change (Bsign (Bminus mode_NE (z64 1) a) = false).
      etransitivity; [exact S0|]. case Rcompare_spec; intros Hc; [lra|reflexivity|reflexivity].
    - apply rnd_fits. rewrite Rabs_pos_eq by lra. apply Rle_trans with 1; [lra|]. apply (bpow_le radix2 0 1022). lia.
  Qed.
  Lemma smooth_ordered al len vs ws : unsigned al -> unsigned (fsub (z64 1) al) -> unsigned (n64 len) ->
    Forall2 not_above vs ws -> not_greater (ema_val al len vs) (ema_val al len ws).
  Proof.
    intros A B N H. unfold ema_val. rewrite <- (Forall2_len _ _ _ H). destruct (Nat.eqb_spec len 1) as [->|D].
    - unfold newest. rewrite <- (Forall2_len _ _ _ H). generalize (length vs - 1)%nat. induction H as [|x y vs ws H _ IH]; intros [|n]; cbn; auto.
    - destruct (Nat.ltb_spec (length vs) len); [exact I|]. cbn [not_greater].
      assert (Q : not_above (fdiv (fsum (firstn len vs)) (n64 len)) (fdiv (fsum (firstn len ws)) (n64 len))).
      { apply div_mono; [exact N|]. unfold fsum. generalize (Forall2_firstn _ len _ _ H). generalize (firstn len vs), (firstn len ws).
        generalize (not_above_refl (z64 0)). generalize (z64 0) at 1 3. generalize (z64 0).
        intros b a O l m F. revert a b O. induction F as [|x y l m X _ IH]; intros a b O; [exact O|]. cbn [fold_left]. apply IH. apply plus_mono; assumption. }
      revert Q. generalize (fdiv (fsum (firstn len vs)) (n64 len)), (fdiv (fsum (firstn len ws)) (n64 len)).
      generalize (Forall2_skipn _ len _ _ H). generalize (skipn len vs), (skipn len ws).
      induction 1 as [|x y l m X _ IH]; intros a b O; [exact O|]. cbn [fold_left]. apply IH. apply plus_mono; apply mult_mono; assumption.
  Qed.
  Lemma smooth_f64 al len new (step : ctx f64 -> ema_st f64 -> option f64 -> res (ema_st f64 * option f64)) :
    (forall c xs, run_new new step c xs = ema_runs len al xs) -> (1 <= len)%nat ->
    unsigned al -> unsigned (fsub (z64 1) al) -> unsigned (n64 len) ->
    forall c k vs ws, Forall2 (fun a b => Bltb b a = false) vs ws -> exists os ps,
      run_new new step c (repeat None k ++ map Some vs) = Ok os /\ run_new new step c (repeat None k ++ map Some ws) = Ok ps /\ ordered os ps.
  Proof.
    intros RUN L A B N c k vs ws H. rewrite !RUN. fold (warm k vs). fold (warm k ws). rewrite !ema_runs_warm by exact L.
    do 2 eexists. split; [reflexivity|]. split; [reflexivity|]. apply Forall2_app.
    - induction k; constructor; [exact I|assumption].
    - eapply Forall2_each_prefix; [|exact H]. intros. apply smooth_ordered; assumption.
  Qed.
  Theorem C105_ema_f64 len (c : ctx f64) k vs ws : (1 <= len)%nat -> (Z.of_nat len <= 2 ^ 32)%Z ->
    Forall2 (fun a b => Bltb b a = false) vs ws -> exists os ps,
      run_new (ema_new len) ema_step c (repeat None k ++ map Some vs) = Ok os /\
      run_new (ema_new len) ema_step c (repeat None k ++ map Some ws) = Ok ps /\ ordered os ps.
  Proof.
    intros L L'. destruct (ofZ_pos (Z.of_nat len) ltac:(lia)) as (_ & _ & Sn). destruct (ofZ_pos 2 ltac:(lia)) as (F2 & E2 & S2). destruct (ofZ_pos 1 ltac:(lia)) as (F1 & E1 & S1).
    assert (FP : is_finite (fadd (n64 len) (z64 1)) = true) by exact (proj1 (int_plus_1 log10 len L')). assert (EP : B2R (fadd (n64 len) (z64 1)) = INR len + 1) by exact (proj2 (int_plus_1 log10 len L')). assert (P1 : 1 <= INR len) by (apply (le_INR 1); exact L).
    apply (smooth_f64 (ema_alpha_of len) len); [intros; apply ema_with_alpha_run; exact L|exact L| | |right; exact Sn].
    - apply (div_pz log10); [right; exact S2|]. apply (plus_pz log10); [right; exact Sn|]. left. right. exact S1.
    - destruct (div_within log10 (f64_ofZ 0) (f64_ofZ 1) (f64_ofZ 2) (fadd (n64 len) (z64 1)) F2 FP) as [Fa Wa].
      + rewrite EP. lra.
      + rewrite E2, E1, EP. replace (B2R (f64_ofZ 0)) with 0 by reflexivity. split; [apply Rlt_le, Rdiv_lt_0_compat; lra|].
        apply Rmult_le_reg_r with (INR len + 1); [lra|]. unfold Rdiv. rewrite Rmult_assoc, Rinv_l; lra.
      + apply positive_complement; [exact Fa|]. rewrite E1 in Wa. replace (B2R (f64_ofZ 0)) with 0 in Wa by reflexivity. exact Wa.
  Qed.
  Theorem C105_rma_f64 len (c : ctx f64) k vs ws : (1 <= len)%nat -> (Z.of_nat len <= 2 ^ 53)%Z ->
    Forall2 (fun a b => Bltb b a = false) vs ws -> exists os ps,
      run_new (rma_new len) rma_step c (repeat None k ++ map Some vs) = Ok os /\
      run_new (rma_new len) rma_step c (repeat None k ++ map Some ws) = Ok ps /\ ordered os ps.
  Proof.
    intros L L'. destruct (ofZ_pos (Z.of_nat len) ltac:(lia)) as (Fn & En & Sn). destruct (ofZ_pos 1 ltac:(lia)) as (F1 & E1 & S1).
    rewrite <- INR_IZR_INZ in En. assert (P1 : 1 <= INR len) by (apply (le_INR 1); exact L).
    apply (smooth_f64 (rma_alpha_of len) len); [intros; apply rma_run; exact L|exact L| | |right; exact Sn].
    - apply (div_pz log10); right; assumption.
    - destruct (div_within log10 (f64_ofZ 0) (f64_ofZ 1) (f64_ofZ 1) (n64 len) F1 Fn) as [Fa Wa].
      + change (B2R (f64_ofZ (Z.of_nat len)) <> 0). rewrite En. lra.
      + change (B2R (n64 len)) with (B2R (f64_ofZ (Z.of_nat len))). rewrite En, E1. replace (B2R (f64_ofZ 0)) with 0 by reflexivity. split; [apply Rlt_le, Rdiv_lt_0_compat; lra|].
        apply Rmult_le_reg_r with (INR len); [lra|]. unfold Rdiv. rewrite Rmult_assoc, Rinv_l; lra.
      + apply positive_complement; [exact Fa|]. rewrite E1 in Wa. replace (B2R (f64_ofZ 0)) with 0 in Wa by reflexivity. exact Wa.
  Qed.

  Lemma ordered_lastn len xs ys : ordered xs ys ->
    match all_some (lastn len xs), all_some (lastn len ys) with None, None => True | Some v, Some w => Forall2 not_above v w | _, _ => False end.
  Proof.
    intros B. generalize (Forall2_lastn _ len _ _ B). generalize (lastn len xs), (lastn len ys). clear. induction 1 as [|x y l m H _ IH]; [constructor|].
    destruct x as [a|], y as [b|]; cbn in H |- *; try contradiction; [|exact I].
    destruct (all_some l), (all_some m); try contradiction; [|exact I]. constructor; [exact H|exact IH].
  Qed.
  Lemma wma_sums_ordered len : (Z.of_nat (len * len) <= 2 ^ 53)%Z -> forall vs ws, Forall2 not_above vs ws -> forall i s s' n, not_above s s' -> unsigned n ->
    not_above (fst (wma_sums len vs i s n)) (fst (wma_sums len ws i s' n)) /\ snd (wma_sums len vs i s n) = snd (wma_sums len ws i s' n) /\ unsigned (snd (wma_sums len vs i s n)).
  Proof.
    intros LL. induction 1 as [|x y vs ws X _ IH]; intros i s s' n S0 N; [cbn; auto|]. cbn [wma_sums].
    assert (W : unsigned (n64 ((len - i) * len))).
    { apply (pz_fZ log10). assert (T : ((len - i) * len <= len * len)%nat) by (apply Nat.mul_le_mono_r; apply Nat.le_sub_l). apply Nat2Z.inj_le in T. split; [apply Nat2Z.is_nonneg|]. eapply Z.le_trans; [exact T|exact LL]. }
    apply IH; [apply plus_mono; [exact S0|]; apply mult_mono_r; assumption|]. apply (plus_pz log10); [exact N|]. left. exact W.
  Qed.
  Lemma Forall2_rev {A B} (P : A -> B -> Prop) l m : Forall2 P l m -> Forall2 P (rev l) (rev m).
  Proof. induction 1; [constructor|]. cbn. apply Forall2_app; [assumption|]. constructor; [assumption|constructor]. Qed.
  Theorem C105_wma_f64 len (c : ctx f64) xs ys : (1 <= len)%nat -> (Z.of_nat (len * len) <= 2 ^ 53)%Z -> ordered xs ys -> exists os ps,
    run_new (wma_new len) wma_step c xs = Ok os /\ run_new (wma_new len) wma_step c ys = Ok ps /\ ordered os ps.
  Proof.
    intros L L' O. rewrite !wma_run by exact L. do 2 eexists. split; [reflexivity|]. split; [reflexivity|].
    eapply Forall2_each_prefix; [|exact O]. intros v w H _. unfold wma_out. rewrite <- (Forall2_len _ _ _ H).
    destruct (_ <=? _)%nat; [|exact I]. pose proof (ordered_lastn len v w H) as Q.
    destruct (all_some (lastn len v)) as [a|], (all_some (lastn len w)) as [b|]; try contradiction; [|exact I]. cbn [option_map not_greater].
    destruct (wma_sums_ordered len L' (rev a) (rev b) (Forall2_rev _ _ _ Q) 0 (z64 0) (z64 0) (z64 0) (not_above_refl _)) as (A1 & A2 & A3); [right; reflexivity|].
    destruct (wma_sums len (rev a) 0 (z64 0) (z64 0)) as [s n]. destruct (wma_sums len (rev b) 0 (z64 0) (z64 0)) as [s' n']. cbn [fst snd] in *. subst n'.
    apply div_mono; assumption.
  Qed.
  Theorem C105_swma_f64 (c : ctx f64) xs ys : ordered xs ys -> exists os ps,
    run_new swma_new swma_step c xs = Ok os /\ run_new swma_new swma_step c ys = Ok ps /\ ordered os ps.
  Proof.
    intros O. rewrite !swma_run. do 2 eexists. split; [reflexivity|]. split; [reflexivity|].
    eapply Forall2_each_prefix; [|exact O]. intros v w H _. unfold swma_out. rewrite <- (Forall2_len _ _ _ H).
    destruct (_ <=? _)%nat; [|exact I]. pose proof (ordered_lastn 4 v w H) as Q.
    destruct (all_some (lastn 4 v)) as [a|], (all_some (lastn 4 w)) as [b|]; try contradiction; [|exact I]. cbn [option_map not_greater].
    assert (K1 : unsigned (fdiv (z64 1) (z64 6))) by (apply (div_pz log10); apply (pz_fZ log10); lia).
    assert (K2 : unsigned (fdiv (z64 2) (z64 6))) by (apply (div_pz log10); apply (pz_fZ log10); lia).
    revert K1 K2. unfold swma_mean. generalize (fdiv (z64 1) (z64 6)), (fdiv (z64 2) (z64 6)). intros k1 k2 K1 K2. pose proof (not_above_refl (z64 0)) as Z0.
    destruct Q as [|a1 b1 ? ? Q1 [|a2 b2 ? ? Q2 [|a3 b3 ? ? Q3 [|a4 b4 ? ? Q4 [|? ? ? ? Q5 _]]]]]; try exact Z0;
      repeat (apply plus_mono || (apply mult_mono_r; [assumption|assumption]) || exact Z0).
  Qed.
  (** Highest and Lowest, on data without NaN. *)
  #[local] Instance O105 : OrdNum f64 := IEEEOrd log10.
  Definition not_nans (xs : list (option f64)) : Prop := Forall (fun v => is_nan v = false) (present xs).
  Lemma ordered_present xs ys : ordered xs ys -> Forall2 not_above (present xs) (present ys).
  Proof. induction 1 as [|x y xs ys H _ IH]; [constructor|]. destruct x, y; cbn in H |- *; try contradiction; [constructor; assumption|exact IH]. Qed.
  Lemma Forall2_In_l {A B} (P : A -> B -> Prop) l m x : Forall2 P l m -> In x l -> exists y, In y m /\ P x y.
  Proof. induction 1 as [|a b l m X _ IH]; [contradiction|]. intros [<-|I0]; [exists b; cbn; auto|]. destruct (IH I0) as (y & Y & Q). exists y. cbn. auto. Qed.
  Lemma Forall2_In_r {A B} (P : A -> B -> Prop) l m y : Forall2 P l m -> In y m -> exists x, In x l /\ P x y.
  Proof. induction 1 as [|a b l m X _ IH]; [contradiction|]. intros [<-|I0]; [exists a; cbn; auto|]. destruct (IH I0) as (x & Y & Q). exists x. cbn. auto. Qed.
  Lemma not_above_le x y : is_nan x = false -> is_nan y = false -> not_above x y -> fleb x y = true.
  Proof. intros A B H. apply (@Laws.not_lt_le f64 N105 O105); assumption. Qed.
  Lemma best_ordered v w : Forall2 not_above v w -> no_nan v -> no_nan w ->
    not_greater (best (fun v m => fltb m v) v) (best (fun v m => fltb m v) w) /\ not_greater (best (fun v m => fltb v m) v) (best (fun v m => fltb v m) w).
  Proof.
    intros H Nv Nw. pose proof (best_max v Nv) as A1. pose proof (best_max w Nw) as A2. pose proof (best_min v Nv) as A3. pose proof (best_min w Nw) as A4.
    unfold no_nan in *. rewrite Forall_forall in Nv, Nw. destruct H as [|x y v w X H]; [split; exact I|]. unfold best in *. cbn [not_greater]. split.
    - destruct A1 as [I1 G1], A2 as [_ G2]. destruct (Forall2_In_l not_above (x :: v) (y :: w) _ (Forall2_cons _ _ X H) I1) as (z & Iz & Q).
      rewrite Forall_forall in G2. specialize (G2 z Iz). apply (@Laws.le_not_lt f64 N105 O105). eapply (@Laws.le_trans f64 N105 O105); [|exact G2].
      apply not_above_le; [apply Nv, I1|apply Nw, Iz|exact Q].
    - destruct A3 as [_ G1], A4 as [I2 G2]. destruct (Forall2_In_r not_above (x :: v) (y :: w) _ (Forall2_cons _ _ X H) I2) as (z & Iz & Q).
      rewrite Forall_forall in G1. specialize (G1 z Iz). apply (@Laws.le_not_lt f64 N105 O105). eapply (@Laws.le_trans f64 N105 O105); [exact G1|].
      apply not_above_le; [apply Nv, Iz|apply Nw, I2|exact Q].
  Qed.
  Lemma present_incl {A} n (l : list (option A)) x : In x (present (lastn n l)) -> In x (present l).
  Proof.
    unfold lastn. generalize (length l - n)%nat. intros k. revert l. induction k as [|k IH]; intros l H; [exact H|]. destruct l as [|[a|] l]; [exact H| |]; cbn in *; auto.
  Qed.
  Lemma present_firstn {A} n (l : list (option A)) x : In x (present (firstn n l)) -> In x (present l).
  Proof. revert l. induction n as [|n IH]; intros l H; [contradiction|]. destruct l as [|[a|] l]; [exact H| |]; cbn in *; [destruct H; auto|auto]. Qed.
  Lemma extrema_ordered len i0 v w : ordered v w -> not_nans v -> not_nans w ->
    not_greater (highest_out len i0 v) (highest_out len i0 w) /\ not_greater (lowest_out len i0 v) (lowest_out len i0 w).
  Proof.
    intros H Nv Nw. unfold highest_out, lowest_out. rewrite <- (Forall2_len _ _ _ H). destruct (_ <=? _)%nat; [|split; exact I].
    apply best_ordered.
    - apply ordered_present. apply Forall2_lastn, H.
    - apply Forall_forall. intros x J. unfold not_nans in Nv. rewrite Forall_forall in Nv. eapply Nv, present_incl, J.
    - apply Forall_forall. intros x J. unfold not_nans in Nw. rewrite Forall_forall in Nw. eapply Nw, present_incl, J.
  Qed.
  Lemma Forall2_restrict {A B} (P : A -> B -> Prop) (Q1 : list A -> Prop) (Q2 : list B -> Prop) {C D} (f : list A -> C) (g : list B -> D) (Z : C -> D -> Prop) xs ys :
    (forall n, Q1 xs -> Q1 (firstn n xs)) -> (forall n, Q2 ys -> Q2 (firstn n ys)) ->
    (forall v w, Forall2 P v w -> Q1 v -> Q2 w -> Z (f v) (g w)) -> Forall2 P xs ys -> Q1 xs -> Q2 ys -> Forall2 Z (each_prefix f xs) (each_prefix g ys).
  Proof.
    intros S1 S2 K H A1 A2. assert (G : forall v w, (exists n, v = firstn n xs /\ w = firstn n ys) -> Z (f v) (g w)).
    { intros v w (n & -> & ->). apply K; [apply Forall2_firstn, H|apply S1, A1|apply S2, A2]. }
    unfold each_prefix, prefixes. rewrite <- (Forall2_len _ _ _ H). generalize (seq 0 (length xs)). induction l as [|i l IH]; cbn [map]; constructor; [|exact IH].
    apply G. exists (S i). split; reflexivity.
  Qed.
  Theorem C105_highest_f64 len (c : ctx f64) xs ys : (1 <= len)%nat -> ordered xs ys -> not_nans xs -> not_nans ys -> exists os ps,
    run_new (highest_new len) highest_step c xs = Ok os /\ run_new (highest_new len) highest_step c ys = Ok ps /\ ordered os ps.
  Proof.
    intros L O A B. do 2 eexists. split; [apply (makes_run _ _ _ _ c _ (highest_makes len L) I)|]. split; [apply (makes_run _ _ _ _ c _ (highest_makes len L) I)|].
    apply (Forall2_restrict not_greater not_nans not_nans); try assumption; try (intros n; unfold not_nans; rewrite !Forall_forall; intros J x K; eapply J, present_firstn, K).
    intros v w X Y W. apply extrema_ordered; assumption.
  Qed.
  Theorem C105_lowest_f64 len (c : ctx f64) xs ys : (1 <= len)%nat -> ordered xs ys -> not_nans xs -> not_nans ys -> exists os ps,
    run_new (lowest_new len) lowest_step c xs = Ok os /\ run_new (lowest_new len) lowest_step c ys = Ok ps /\ ordered os ps.
  Proof.
    intros L O A B. do 2 eexists. split; [apply (makes_run _ _ _ _ c _ (lowest_makes len L) I)|]. split; [apply (makes_run _ _ _ _ c _ (lowest_makes len L) I)|].
    apply (Forall2_restrict not_greater not_nans not_nans); try assumption; try (intros n; unfold not_nans; rewrite !Forall_forall; intros J x K; eapply J, present_firstn, K).
    intros v w X Y W. apply extrema_ordered; assumption.
  Qed.

  (** The simple average is the exception: its running sum subtracts, and in f64
      raising one price can lower a later average. *)
  Theorem C105_sma_f64_not_monotone (c : ctx f64) : exists xs ys os ps v w,
    ordered xs ys /\ run_new (sma_new 2) sma_step c xs = Ok os /\ run_new (sma_new 2) sma_step c ys = Ok ps /\
    nth_error os 2 = Some (Some v) /\ nth_error ps 2 = Some (Some w) /\ Bltb w v = true.
  Proof.
    exists [Some (z64 0); Some (z64 1); Some (z64 0)], [Some (z64 (2 ^ 53)); Some (z64 1); Some (z64 0)].
    rewrite !sma_run by lia.
    assert (K : match nth_error (each_prefix (sma_out 2) [Some (z64 0); Some (z64 1); Some (z64 0)]) 2, nth_error (each_prefix (sma_out 2) [Some (z64 (2 ^ 53)); Some (z64 1); Some (z64 0)]) 2 with
                | Some (Some v), Some (Some w) => Bltb w v | _, _ => false end = true) by (vm_compute; reflexivity).
    revert K. generalize (each_prefix (sma_out 2) [Some (z64 0); Some (z64 1); Some (z64 0)]), (each_prefix (sma_out 2) [Some (z64 (2 ^ 53)); Some (z64 1); Some (z64 0)]).
    intros os ps K. exists os, ps. destruct (nth_error os 2) as [[v|]|]; try discriminate K. destruct (nth_error ps 2) as [[w|]|]; try discriminate K.
    exists v, w. split; [|auto 6]. constructor; [vm_compute; reflexivity|]. constructor; [vm_compute; reflexivity|]. constructor; [vm_compute; reflexivity|constructor].
  Qed.
  (** The hypotheses are met: two series, ordered, with an infinity and a gap. *)
  Example C105_ex_ordered : ordered [None; Some (z64 1); Some (B754_infinity true); Some (z64 3)] [None; Some (z64 1); Some (z64 (-4)); Some (z64 7)].
  Proof. constructor; [exact I|]. do 3 (constructor; [vm_compute; reflexivity|]). constructor. Qed.
End C105f.
Example C105_ex_beside : beside (1/2) [Some 1; None; Some 2] [Some 0.6; None; Some 7].
Proof. repeat constructor; cbn; lra. Qed.
(** Ema of 3 after two different beginnings and three common values: 1/8 of the earlier difference is left. *)
Example C104_ex (c : ctx xr) : exists a0 b0 a b,
  reports (ema_new 3) ema_step c (full [1; 2; 3]) (Fin a0) /\ reports (ema_new 3) ema_step c (full [10; 20; 30; 40]) (Fin b0) /\
  reports (ema_new 3) ema_step c (full ([1; 2; 3] ++ [5; 6; 7])) (Fin a) /\ reports (ema_new 3) ema_step c (full ([10; 20; 30; 40] ++ [5; 6; 7])) (Fin b) /\
  a - b = (1 - 2 / (INR 3 + 1)) ^ 3 * (a0 - b0).
Proof. apply (C104_ema 3 c c [1; 2; 3] [10; 20; 30; 40] [5; 6; 7]); cbn; lia. Qed.
