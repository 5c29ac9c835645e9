(** * PExact2: Rsi, Stoch, true range in exact arithmetic. *)
From Verif Require Export PExact PTa4.
Local Open Scope R_scope.

Lemma warm_S_snoc {A} k (v : A) : warm k [v] = repeat None k ++ [Some v].
Proof. reflexivity. Qed.

Lemma gains_repeat {F} {NF : Num F} k : gains (repeat None k : list (option F)) = repeat None k.
Proof.
  induction k as [|k IH]; [reflexivity|]. replace (S k) with (k + 1)%nat by lia. rewrite repeat_app. cbn [repeat].
  rewrite gains_snoc, IH. f_equal. f_equal. unfold rsi_gain. destruct (join _); reflexivity.
Qed.
Lemma losses_repeat {F} {NF : Num F} k : losses (repeat None k : list (option F)) = repeat None k.
Proof.
  induction k as [|k IH]; [reflexivity|]. replace (S k) with (k + 1)%nat by lia. rewrite repeat_app. cbn [repeat].
  rewrite losses_snoc, IH. f_equal. f_equal. unfold rsi_loss. destruct (join _); reflexivity.
Qed.
Lemma newest_repeat_None {A} k : join (newest (repeat (@None A) k)) = None.
Proof.
  destruct (newest (repeat None k)) as [o|] eqn:E; [|reflexivity].
  unfold newest in E. apply nth_error_In, repeat_spec in E. subst. reflexivity.
Qed.

Lemma gains_warm k vs : vs <> [] -> gains (warm k (map Fin vs)) = warm (S k) (map Fin (Rgains vs)).
Proof.
  destruct vs as [|v vs]; [congruence|]. intros _. revert v. induction vs as [|w vs IH] using rev_ind; intros v.
  - cbn [map]. rewrite warm_S_snoc, gains_snoc, gains_repeat, newest_repeat_None. cbn [rsi_gain].
    unfold Rgains; cbn [diffs map]. rewrite warm_S_nil, warm_nil_repeat. reflexivity.
  - destruct vs as [|u vs] using rev_ind.
    + cbn [map app]. change [Fin v; Fin w] with ([Fin v] ++ [Fin w]).
      pose proof (IH v) as IHv; cbn [map] in IHv.
      rewrite warm_snoc, gains_snoc, IHv, (warm_S_snoc k (Fin v)), newest_snoc.
      unfold Rgains; cbn [diffs map join rsi_gain]. rewrite warm_S_snoc, warm_nil_repeat, fin_sub, fin_Z, fin_max. reflexivity.
    + clear IHvs.
      assert (E1 : map Fin (v :: (vs ++ [u]) ++ [w]) = map Fin (v :: vs ++ [u]) ++ [Fin w])
        by (rewrite app_comm_cons, map_app; reflexivity).
      assert (E2 : map Fin (v :: vs ++ [u]) = map Fin (v :: vs) ++ [Fin u])
        by (rewrite app_comm_cons, map_app; reflexivity).
      rewrite E1, warm_snoc, gains_snoc, (IH v), E2, warm_snoc, newest_snoc. cbn [join rsi_gain].
      unfold Rgains. rewrite <- app_assoc. cbn [app].
      change (v :: vs ++ [u; w]) with ((v :: vs) ++ [u; w]). rewrite diffs_snoc, !map_app. cbn [map].
      rewrite warm_snoc, fin_sub, fin_Z, fin_max. reflexivity.
Qed.
Lemma opp_min d : - Rmin d 0 = Rmax (- d) 0.
Proof. unfold Rmin, Rmax. destruct (Rle_dec d 0), (Rle_dec (- d) 0); lra. Qed.
Lemma losses_warm k vs : vs <> [] -> losses (warm k (map Fin vs)) = warm (S k) (map Fin (Rlosses vs)).
Proof.
  destruct vs as [|v vs]; [congruence|]. intros _. revert v. induction vs as [|w vs IH] using rev_ind; intros v.
  - cbn [map]. rewrite warm_S_snoc, losses_snoc, losses_repeat, newest_repeat_None. cbn [rsi_loss].
    unfold Rlosses; cbn [diffs map]. rewrite warm_S_nil, warm_nil_repeat. reflexivity.
  - destruct vs as [|u vs] using rev_ind.
    + cbn [map app]. change [Fin v; Fin w] with ([Fin v] ++ [Fin w]).
      pose proof (IH v) as IHv; cbn [map] in IHv.
      rewrite warm_snoc, losses_snoc, IHv, (warm_S_snoc k (Fin v)), newest_snoc.
      unfold Rlosses; cbn [diffs map join rsi_loss]. rewrite warm_S_snoc, warm_nil_repeat, fin_sub, fin_Z, fin_min, fin_neg, opp_min. reflexivity.
    + clear IHvs.
      assert (E1 : map Fin (v :: (vs ++ [u]) ++ [w]) = map Fin (v :: vs ++ [u]) ++ [Fin w])
        by (rewrite app_comm_cons, map_app; reflexivity).
      assert (E2 : map Fin (v :: vs ++ [u]) = map Fin (v :: vs) ++ [Fin u])
        by (rewrite app_comm_cons, map_app; reflexivity).
      rewrite E1, warm_snoc, losses_snoc, (IH v), E2, warm_snoc, newest_snoc. cbn [join rsi_loss].
      unfold Rlosses. rewrite <- app_assoc. cbn [app].
      change (v :: vs ++ [u; w]) with ((v :: vs) ++ [u; w]). rewrite diffs_snoc, !map_app. cbn [map].
      rewrite warm_snoc, fin_sub, fin_Z, fin_min, fin_neg, opp_min. reflexivity.
Qed.

Lemma Rgains_nonneg vs : Forall (fun x => 0 <= x) (Rgains vs).
Proof. unfold Rgains. apply Forall_forall. intros x Hx. apply in_map_iff in Hx. destruct Hx as (d & <- & _). apply Rmax_r. Qed.
Lemma Rlosses_nonneg vs : Forall (fun x => 0 <= x) (Rlosses vs).
Proof. unfold Rlosses. apply Forall_forall. intros x Hx. apply in_map_iff in Hx. destruct Hx as (d & <- & _). apply Rmax_r. Qed.

Lemma Rsmooth_nonneg alpha len vs e : (1 <= len)%nat -> 0 <= alpha <= 1 ->
  Forall (fun x => 0 <= x) vs -> Rsmooth alpha len vs = Some e -> 0 <= e.
Proof.
  intros L A H E.
  assert (G : in_range 0 (Rmaxl 0 vs) e).
  { eapply Rsmooth_in; [exact L|exact A| |exact E]. destruct (Rmaxl_ge 0 vs) as [_ M].
    unfold all_in. rewrite Forall_forall in *. intros x Hx. split; [apply H; exact Hx|apply M; exact Hx]. }
  apply G.
Qed.
Lemma inv_len_range len : (1 <= len)%nat -> 0 <= 1 / INR len <= 1.
Proof.
  intros L. pose proof (INR_pos len L). assert (1 <= INR len) by (change 1 with (INR 1); apply le_INR; exact L).
  split; [apply Rmult_le_pos; [lra|left; apply Rinv_0_lt_compat; lra]|].
  apply Rmult_le_reg_r with (INR len); [lra|]. unfold Rdiv. rewrite Rmult_assoc, Rinv_l by lra. lra.
Qed.

Lemma rsi_val_exact u d : 0 <= u -> 0 <= d -> rsi_val (Some (Fin u)) (Some (Fin d)) = Some (Rrsi_of u d).
Proof.
  intros Hu Hd. unfold rsi_val, Rrsi_of. f_equal. destruct (Req_EM_T d 0) as [->|N].
  - rewrite fin_div0. unfold rsgn. destruct (Rlt_dec 0 u) as [P|P].
    + destruct (Req_EM_T u 0); [lra|]. cbn. f_equal. lra.
    + destruct (Rlt_dec u 0); [lra|]. destruct (Req_EM_T u 0); [|lra]. reflexivity.
  - assert (P : 0 <= u / d) by (apply Rmult_le_pos; [lra|left; apply Rinv_0_lt_compat; lra]).
    rewrite fin_div, !fin_Z, fin_add by exact N. rewrite fin_div, fin_sub by lra. reflexivity.
Qed.

Lemma rsi_exact k len vs : (2 <= len)%nat -> rsi_out len (warm k (map Fin vs)) = Rrsi len vs.
Proof.
  intros L. unfold rsi_out, Rrsi. destruct vs as [|v vs].
  - cbn [map]. rewrite warm_nil_repeat, gains_repeat, losses_repeat.
    unfold ema_out. rewrite <- warm_nil_repeat, present_warm, ema_val_nil by lia. cbn [rsi_val].
    destruct len as [|len]; [lia|]; reflexivity.
  - rewrite gains_warm, losses_warm by discriminate. unfold ema_out. rewrite !present_warm, !rma_exact by lia.
    destruct (Rsmooth (1 / INR len) len (Rgains (v :: vs))) as [u|] eqn:EU; [|reflexivity].
    destruct (Rsmooth (1 / INR len) len (Rlosses (v :: vs))) as [d|] eqn:ED; [|reflexivity].
    cbn [option_map]. apply rsi_val_exact.
    + eapply Rsmooth_nonneg; [| |apply Rgains_nonneg|exact EU]; [lia|apply inv_len_range; lia].
    + eapply Rsmooth_nonneg; [| |apply Rlosses_nonneg|exact ED]; [lia|apply inv_len_range; lia].
Qed.

Lemma Rrsi_of_range u d : 0 <= u -> 0 <= d ->
  match Rrsi_of u d with Fin r => 0 <= r <= 100 | XNaN => u = 0 /\ d = 0 | _ => False end.
Proof.
  intros Hu Hd. unfold Rrsi_of. destruct (Req_EM_T d 0) as [->|N].
  - destruct (Req_EM_T u 0) as [->|]; [auto|lra].
  - assert (P : 0 <= u / d) by (apply Rmult_le_pos; [lra|left; apply Rinv_0_lt_compat; lra]).
    assert (Q : 0 < 100 / (1 + u / d) <= 100); [|lra]. split.
    + apply Rmult_lt_0_compat; [lra|apply Rinv_0_lt_compat; lra].
    + apply Rmult_le_reg_r with (1 + u / d); [lra|]. unfold Rdiv at 1. rewrite Rmult_assoc, Rinv_l by lra. lra.
Qed.

(** a smoothing of zeros is zero, of positives is positive. *)
Lemma Rsmooth_zero alpha len n e : (1 <= len)%nat -> Rsmooth alpha len (repeat 0 n) = Some e -> e = 0.
Proof.
  intros L. unfold Rsmooth. rewrite repeat_length. destruct (Nat.ltb_spec n len); [discriminate|].
  intros E; injection E as <-.
  assert (Z : forall m, Rsum (repeat 0 m) = 0) by (induction m; cbn; lra).
  assert (RN : firstn len (repeat 0 n) = repeat 0 len /\ skipn len (repeat 0 n) = repeat 0 (n - len)).
  { replace (repeat 0 n) with (repeat 0 len ++ repeat 0 (n - len)) by (rewrite <- repeat_app; f_equal; lia). split.
    - rewrite firstn_app, repeat_length, Nat.sub_diag, firstn_O, app_nil_r.
      apply firstn_all2. rewrite repeat_length; lia.
    - rewrite skipn_app, repeat_length, Nat.sub_diag, skipn_all2 by (rewrite repeat_length; lia). reflexivity. }
  destruct RN as [-> ->]. unfold Rmean. rewrite Z.
  replace (0 / INR (length (repeat 0 len))) with 0 by (unfold Rdiv; ring).
  induction (n - len)%nat as [|m IH]; cbn; [reflexivity|]. replace (alpha * 0 + (1 - alpha) * 0) with 0 by ring. exact IH.
Qed.
Lemma Rsum_pos l : l <> [] -> Forall (fun x => 0 < x) l -> 0 < Rsum l.
Proof.
  intros N H. destruct H as [|x l Hx H]; [congruence|]. cbn.
  assert (0 <= Rsum l). { apply Rsum_nonneg. eapply Forall_impl; [|exact H]. intros; lra. } lra.
Qed.
Lemma Rsmooth_pos alpha len vs e : (1 <= len)%nat -> 0 < alpha <= 1 ->
  Forall (fun x => 0 < x) vs -> Rsmooth alpha len vs = Some e -> 0 < e.
Proof.
  intros L A H. unfold Rsmooth. destruct (Nat.ltb_spec (length vs) len); [discriminate|].
  intros E; injection E as <-. rewrite <- (firstn_skipn len vs) in H. apply Forall_app in H. destruct H as [H1 H2].
  assert (N : length (firstn len vs) = len) by (rewrite firstn_length_le; lia).
  assert (P : 0 < Rmean (firstn len vs)).
  { unfold Rmean. rewrite N. apply Rdiv_lt_0_compat; [|apply INR_pos; exact L].
    apply Rsum_pos; [|exact H1]. destruct (firstn len vs); [cbn in N; lia|discriminate]. }
  revert P. generalize (Rmean (firstn len vs)). clear - A H2.
  induction H2 as [|x l Hx H IH]; intros a Ha; cbn; [exact Ha|]. apply IH. nra.
Qed.

(** strictly rising / falling series. *)
Definition rising (vs : list R) : Prop := Forall (fun d => 0 < d) (diffs vs).
Definition falling (vs : list R) : Prop := Forall (fun d => d < 0) (diffs vs).
Lemma rising_losses vs : rising vs -> Rlosses vs = repeat 0 (length (diffs vs)) /\ Forall (fun x => 0 < x) (Rgains vs).
Proof.
  unfold rising, Rlosses, Rgains. induction 1 as [|d l Hd H [IH1 IH2]]; cbn; [split; [reflexivity|constructor]|].
  split; [rewrite IH1; f_equal; unfold Rmax; destruct (Rle_dec (- d) 0); lra|].
  constructor; [unfold Rmax; destruct (Rle_dec d 0); lra|exact IH2].
Qed.
Lemma falling_gains vs : falling vs -> Rgains vs = repeat 0 (length (diffs vs)) /\ Forall (fun x => 0 < x) (Rlosses vs).
Proof.
  unfold falling, Rlosses, Rgains. induction 1 as [|d l Hd H [IH1 IH2]]; cbn; [split; [reflexivity|constructor]|].
  split; [rewrite IH1; f_equal; unfold Rmax; destruct (Rle_dec d 0); lra|].
  constructor; [unfold Rmax; destruct (Rle_dec (- d) 0); lra|exact IH2].
Qed.
Lemma inv_len_pos len : (1 <= len)%nat -> 0 < 1 / INR len <= 1.
Proof. intros L. split; [apply Rdiv_lt_0_compat; [lra|apply INR_pos; exact L]|apply inv_len_range; exact L]. Qed.

Lemma Rrsi_rising len vs r : (2 <= len)%nat -> rising vs -> Rrsi len vs = Some r -> r = Fin 100.
Proof.
  intros L H. destruct (rising_losses vs H) as [EL PG]. unfold Rrsi. rewrite EL.
  destruct (Rsmooth _ len (Rgains vs)) as [u|] eqn:EU; [|discriminate].
  destruct (Rsmooth _ len (repeat 0 _)) as [d|] eqn:ED; [|discriminate].
  intros E; injection E as <-. apply Rsmooth_zero in ED; [|lia]. subst d.
  apply Rsmooth_pos in EU; [|lia|apply inv_len_pos; lia|exact PG].
  unfold Rrsi_of. destruct (Req_EM_T 0 0); [|lra]. destruct (Req_EM_T u 0); [lra|reflexivity].
Qed.
Lemma Rrsi_falling len vs r : (2 <= len)%nat -> falling vs -> Rrsi len vs = Some r -> r = Fin 0.
Proof.
  intros L H. destruct (falling_gains vs H) as [EG PL]. unfold Rrsi. rewrite EG.
  destruct (Rsmooth _ len (repeat 0 _)) as [u|] eqn:EU; [|discriminate].
  destruct (Rsmooth _ len (Rlosses vs)) as [d|] eqn:ED; [|discriminate].
  intros E; injection E as <-. apply Rsmooth_zero in EU; [|lia]. subst u.
  apply Rsmooth_pos in ED; [|lia|apply inv_len_pos; lia|exact PL].
  unfold Rrsi_of. destruct (Req_EM_T d 0); [lra|]. f_equal. field. lra.
Qed.
Lemma Rrsi_defined len vs : (1 <= len)%nat -> is_some (Rrsi len vs) = (len <? length vs)%nat.
Proof.
  intros L. unfold Rrsi, Rsmooth, Rgains, Rlosses. rewrite !map_length, diffs_length.
  destruct (Nat.ltb_spec (length vs - 1) len), (Nat.ltb_spec len (length vs)); try reflexivity; lia.
Qed.
Lemma Rrsi_range len vs r : (2 <= len)%nat -> Rrsi len vs = Some r ->
  match r with Fin x => 0 <= x <= 100 | XNaN => True | _ => False end.
Proof.
  intros L. unfold Rrsi.
  destruct (Rsmooth _ len (Rgains vs)) as [u|] eqn:EU; [|discriminate].
  destruct (Rsmooth _ len (Rlosses vs)) as [d|] eqn:ED; [|discriminate].
  intros E; injection E as <-.
  assert (Hu : 0 <= u) by (eapply Rsmooth_nonneg; [| |apply Rgains_nonneg|exact EU]; [lia|apply inv_len_range; lia]).
  assert (Hd : 0 <= d) by (eapply Rsmooth_nonneg; [| |apply Rlosses_nonneg|exact ED]; [lia|apply inv_len_range; lia]).
  pose proof (Rrsi_of_range u d Hu Hd) as R. destruct (Rrsi_of u d); auto.
Qed.

(** ** runs *)
Lemma rsi_run_exact len c k vs : (2 <= len)%nat ->
  run_new (rsi_new len) rsi_step c (warm k (map Fin vs)) =
  Ok (repeat None k ++ each_prefix (Rrsi len) vs).
Proof.
  intros L. rewrite (makes_run _ _ _ _ c (warm k (map Fin vs)) (rsi_makes len L)); [|exists k, (map Fin vs); reflexivity].
  f_equal. unfold warm. rewrite each_prefix_app. f_equal.
  - rewrite each_prefix_const with (b := None); [rewrite repeat_length; reflexivity|].
    intros p Hp. apply in_prefixes in Hp. destruct Hp as (j & Hj & ->).
    assert (E : firstn (S j) (repeat None k) = warm (Nat.min (S j) k) (map Fin [])).
    { rewrite <- (warm_nil_repeat k), warm_prefix, firstn_nil. reflexivity. }
    rewrite E, rsi_exact by exact L. destruct len as [|len]; [lia|]; reflexivity.
  - rewrite each_prefix_of_map, each_prefix_of_map. apply each_prefix_ext. intros p.
    rewrite <- (rsi_exact k len p L). reflexivity.
Qed.

Lemma ema_run_exact alpha len c k vs : (1 <= len)%nat -> (len = 1%nat -> alpha = 1) ->
  run_new (ema_with_alpha len (Fin alpha)) ema_step c (warm k (map Fin vs)) =
  Ok (repeat None k ++ lift (each_prefix (Rsmooth alpha len) vs)).
Proof.
  intros L A. rewrite ema_with_alpha_run, ema_runs_warm by exact L. do 2 f_equal.
  rewrite each_prefix_of_map. unfold lift. rewrite each_prefix_map. apply each_prefix_ext. intros p.
  apply ema_exact; assumption.
Qed.

Lemma nth_lift (f : list (option R) -> option R) xs i v :
  nth_error (lift (each_prefix f xs)) i = Some (Some v) ->
  exists r, v = Fin r /\ f (firstn (S i) xs) = Some r /\ (i < length xs)%nat.
Proof.
  intros H. assert (Hi : (i < length xs)%nat).
  { rewrite <- (length_each_prefix f xs), <- lift_length. apply nth_error_Some. congruence. }
  unfold lift in H. rewrite (map_nth_error _ _ _ (nth_error_each_prefix f xs i Hi)) in H.
  remember (firstn (S i) xs) as p. destruct (f p) as [r|]; [|discriminate]. cbn in H. injection H as <-. eauto.
Qed.
