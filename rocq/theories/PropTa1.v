(** * PropTa1: C09-C17 (moving averages, sums, differences). *)
From Verif Require Import PTa4 PExact2 IEEE Inst.
Local Open Scope nat_scope.

(** ** C09, C10: definedness for every arithmetic; the value in exact arithmetic. *)
Section C09.
  Context {F : Type} {NF : Num F}.

  (** Some value is output exactly at the bars whose last [len] inputs exist and
      are all present; one output per input, no panic. *)
  Theorem C09_sma_defined len (c : ctx F) xs : 1 <= len ->
    exists os, run_new (sma_new len) sma_step c xs = Ok os /\
      map is_some os = each_prefix (fun h => is_some (window len h)) xs.
  Proof.
    intros L. rewrite sma_run by exact L. eexists; split; [reflexivity|]. rewrite each_prefix_map.
    apply each_prefix_ext_in. intros p Hp. apply sma_out_defined; [exact L|]. apply nonnil_prefix in Hp; exact Hp.
  Qed.
  Theorem C09_sma_length_one (c : ctx F) xs : run_new (sma_new 1) sma_step c xs = Ok xs.
  Proof.
    rewrite sma_run by lia. f_equal. transitivity (each_prefix (cur (fun x : option F => x)) xs).
    - apply each_prefix_ext. intros p. unfold sma_out, cur, join, obind. cbn [Nat.eqb]. destruct (newest p); reflexivity.
    - rewrite each_prefix_cur. apply map_id.
  Qed.
  Theorem C09_sma_length_zero_rejected (c : ctx F) xs : run_new (sma_new 0) sma_step c xs = Panic.
  Proof. reflexivity. Qed.

  Theorem C10_sum_defined len (c : ctx F) xs : 1 <= len ->
    exists os, run_new (sum_new len) sum_step c xs = Ok os /\
      map is_some os = each_prefix (fun h => is_some (window len h)) xs.
  Proof.
    intros L. rewrite sum_run by exact L. eexists; split; [reflexivity|]. rewrite each_prefix_map.
    apply each_prefix_ext. intros p. unfold sum_out. destruct (window len p); reflexivity.
  Qed.
End C09.

(** The mean / sum of the last [len] inputs, gaps and all. *)
Theorem C09_sma_mean len c (xs : list (option R)) : 1 <= len ->
  run_new (sma_new len) sma_step c (lift xs) =
  Ok (lift (each_prefix (fun h => option_map Rmean (window len h)) xs)).
Proof. apply sma_run_exact. Qed.
Theorem C10_sum_total len c (xs : list (option R)) : 1 <= len ->
  run_new (sum_new len) sum_step c (lift xs) =
  Ok (lift (each_prefix (fun h => option_map Rsum (window len h)) xs)).
Proof. apply sum_run_exact. Qed.

Example C09_ex : gives same_opt (run_new (sma_new 2) sma_step ctx6 [Some (q 1); Some (q 3); None; Some (q 5); Some (q 7)])
  [None; Some (q 2); None; None; Some (q 6)] = true.
Proof. vm_compute. reflexivity. Qed.
Example C10_ex : gives same_opt (run_new (sum_new 2) sum_step ctx6 [Some (q 1); Some (q 3); None; Some (q 5); Some (q 7)])
  [None; Some (q 4); None; None; Some (q 12)] = true.
Proof. vm_compute. reflexivity. Qed.
Example C09_spec_ex : window 2 [Some 1%R; None; Some 2%R; Some 5%R] = Some [2%R; 5%R] /\ Rmean [2%R; 5%R] = (7 / 2)%R.
Proof. split; [reflexivity|]. unfold Rmean; cbn. lra. Qed.

(** ** C11, C12: the recurrence, for every arithmetic, with or without gaps. *)
Section C11.
  Context {F : Type} {NF : Num F}.
  Local Open Scope num_scope.

  (** [os] follows the recurrence with weight [alpha] from the seeds [ms]: as
      long as nothing has been output the seed of the bar is output, and from
      then on [alpha * x + (1 - alpha) * (previous output)]. *)
  Definition follows (alpha : F) (ms xs os : list (option F)) : Prop :=
    length os = length xs /\
    forall i x, nth_error xs i = Some x ->
      match before None os i with
      | None => nth_error os i = nth_error ms i
      | Some p => exists v, x = Some v /\ nth_error os i = Some (Some (alpha * v + (fZ 1 - alpha) * p))
      end.

  Lemma ema_follows len alpha (c : ctx F) xs os : (2 <= len)%nat ->
    run_new (ema_with_alpha len alpha) ema_step c xs = Ok os ->
    exists ms, run_new (sma_new len) sma_step c xs = Ok ms /\ follows alpha ms xs os.
  Proof.
    intros L E. rewrite ema_with_alpha_run in E by lia. destruct (ema_runs_spec _ _ _ _ L E) as [EL H].
    exists (each_prefix (sma_out len) xs). split; [apply sma_run; lia|]. split; [exact EL|].
    intros i x Hx. specialize (H i x Hx). destruct (before None os i); [exact H|].
    rewrite H. symmetry. apply nth_error_each_prefix. apply nth_error_Some. congruence.
  Qed.
  Lemma ema_panics len alpha (c : ctx F) xs : (2 <= len)%nat ->
    (run_new (ema_with_alpha len alpha) ema_step c xs = Panic <->
     exists i j w, (i < j)%nat /\ window len (firstn (S i) xs) = Some w /\ nth_error xs j = Some None).
  Proof. intros L. rewrite ema_with_alpha_run by lia. apply ema_runs_panic; exact L. Qed.

  (** Seeded by Sma over the same inputs, then the recurrence. *)
  Theorem C11_ema_recurrence len (c : ctx F) xs os : (2 <= len)%nat ->
    run_new (ema_new len) ema_step c xs = Ok os ->
    exists ms, run_new (sma_new len) sma_step c xs = Ok ms /\
               follows (fZ 2 / (fnat len + fZ 1)) ms xs os.
  Proof. apply ema_follows. Qed.
  (** It panics exactly when an input is missing after some window of [len]
      inputs was complete. *)
  Theorem C11_ema_panics_iff len (c : ctx F) xs : (2 <= len)%nat ->
    (run_new (ema_new len) ema_step c xs = Panic <->
     exists i j w, (i < j)%nat /\ window len (firstn (S i) xs) = Some w /\ nth_error xs j = Some None).
  Proof. apply ema_panics. Qed.
  Theorem C11_ema_length_one (c : ctx F) xs : run_new (ema_new 1) ema_step c xs = Ok xs.
  Proof. unfold ema_new. rewrite ema_with_alpha_run by lia. reflexivity. Qed.
  Theorem C11_ema_length_zero_rejected (c : ctx F) xs : run_new (ema_new 0) ema_step c xs = Panic.
  Proof. reflexivity. Qed.

  Theorem C12_rma_recurrence len (c : ctx F) xs os : (2 <= len)%nat ->
    run_new (rma_new len) rma_step c xs = Ok os ->
    exists ms, run_new (sma_new len) sma_step c xs = Ok ms /\ follows (fZ 1 / fnat len) ms xs os.
  Proof. intros L. rewrite rma_new_eq by lia. apply ema_follows; exact L. Qed.
  Theorem C12_rma_panics_iff len (c : ctx F) xs : (2 <= len)%nat ->
    (run_new (rma_new len) rma_step c xs = Panic <->
     exists i j w, (i < j)%nat /\ window len (firstn (S i) xs) = Some w /\ nth_error xs j = Some None).
  Proof. intros L. rewrite rma_new_eq by lia. apply ema_panics; exact L. Qed.
  (** Rma is the Ema with the weight 1/len, panics included. *)
  Theorem C12_rma_is_ema len (c : ctx F) xs :
    run_new (rma_new len) rma_step c xs = run_new (ema_with_alpha len (fZ 1 / fnat len)) ema_step c xs.
  Proof. destruct len; reflexivity. Qed.
  Theorem C12_rma_length_one (c : ctx F) xs : run_new (rma_new 1) rma_step c xs = Ok xs.
  Proof. rewrite C12_rma_is_ema, ema_with_alpha_run by lia. reflexivity. Qed.
End C11.

(** Gap-free inputs, possibly after a warm-up of missing ones: closed form. *)
Theorem C11_ema_closed_form len c k (vs : list R) : 1 <= len ->
  run_new (ema_new len) ema_step c (repeat None k ++ full vs) =
  Ok (repeat None k ++ lift (each_prefix (Rsmooth (2 / (INR len + 1)) len) vs)).
Proof.
  intros L. unfold ema_new. replace (fZ 2 / (fnat len + fZ 1))%num with (Fin (2 / (INR len + 1))) by (rewrite <- ema_alpha_exact by exact L; reflexivity).
  rewrite full_map. apply ema_run_exact; [exact L|]. intros ->. cbn. lra.
Qed.
Theorem C12_rma_closed_form len c k (vs : list R) : 1 <= len ->
  run_new (rma_new len) rma_step c (repeat None k ++ full vs) =
  Ok (repeat None k ++ lift (each_prefix (Rsmooth (1 / INR len) len) vs)).
Proof.
  intros L. rewrite C12_rma_is_ema. replace (fZ 1 / fnat len)%num with (Fin (1 / INR len)) by (rewrite <- rma_alpha_exact by exact L; reflexivity).
  rewrite full_map. apply ema_run_exact; [exact L|]. intros ->. cbn. lra.
Qed.
Example C11_ex : gives same_opt (run_new (ema_new 3) ema_step ctx6 (None :: qs [1; 2; 3; 4; 8]%Z))
  [None; None; None; Some (q 2); Some (q 3); Some (lit 11 2)] = true.
Proof. vm_compute. reflexivity. Qed.
Example C11_panic_ex : run_new (ema_new 2) ema_step ctx6 [Some (q 1); Some (q 2); None] = Panic /\
  gives same_opt (run_new (ema_new 2) ema_step ctx6 [Some (q 1); None; Some (q 2)]) [None; None; None] = true.
Proof. split; [reflexivity|vm_compute; reflexivity]. Qed.
Example C12_ex : gives same_opt (run_new (rma_new 2) rma_step ctx6 (qs [1; 3; 4; 5]%Z))
  [None; Some (q 2); Some (q 3); Some (q 4)] = true.
Proof. vm_compute. reflexivity. Qed.

(** ** C13 *)
(** [r] lies between the least and the greatest element of [l]. *)
Definition between (l : list R) (r : R) : Prop :=
  exists m M, is_min m l /\ is_max M l /\ (m <= r <= M)%R.
Lemma between_intro l r : l <> [] -> (forall lo hi, all_in lo hi l -> in_range lo hi r) -> between l r.
Proof.
  intros N H. destruct (Rminimum l) as [m|] eqn:Em; [|destruct l; [congruence|discriminate]].
  destruct (Rmaximum l) as [M|] eqn:EM; [|destruct l; [congruence|discriminate]].
  apply Rminimum_spec in Em. apply Rmaximum_spec in EM. exists m, M. split; [exact Em|]. split; [exact EM|].
  apply H. destruct Em as [_ A], EM as [_ B]. unfold all_in, in_range. rewrite Forall_forall in *. intros x Hx; split; auto.
Qed.
Lemma nth_lift_each (f : list (option R) -> option R) xs i v :
  nth_error (lift (each_prefix f xs)) i = Some (Some v) ->
  exists r, v = Fin r /\ f (firstn (S i) xs) = Some r /\ i < length xs.
Proof.
  intros H. assert (I : i < length xs).
  { assert (i < length (lift (each_prefix f xs))) by (apply nth_error_Some; congruence).
    rewrite lift_length, length_each_prefix in *; assumption. }
  unfold lift in H. rewrite (map_nth_error _ _ _ (nth_error_each_prefix f xs i I)) in H. remember (firstn (S i) xs) as p.
  injection H as H. destruct (f p) as [r|]; [|discriminate]. cbn in H; injection H as H; subst v. eauto.
Qed.
Lemma nth_lift_eachv (f : list R -> option R) k vs i v :
  nth_error (repeat None k ++ lift (each_prefix f vs)) (k + i) = Some (Some v) ->
  exists r, v = Fin r /\ f (firstn (S i) vs) = Some r /\ i < length vs.
Proof.
  rewrite nth_error_app2, repeat_length by (rewrite repeat_length; lia). replace (k + i - k) with i by lia. intros H.
  assert (I : i < length vs).
  { assert (i < length (lift (each_prefix f vs))) by (apply nth_error_Some; congruence).
    rewrite lift_length, length_each_prefix in *; assumption. }
  unfold lift in H. rewrite (map_nth_error _ _ _ (nth_error_each_prefix f vs i I)) in H. remember (firstn (S i) vs) as p.
  injection H as H. destruct (f p) as [r|]; [|discriminate]. cbn in H; injection H as H; subst v. eauto.
Qed.

Lemma opt_map_some {A B} (g : A -> B) o b : option_map g o = Some b -> exists a, o = Some a /\ g a = b.
Proof. destruct o; cbn; intros E; [injection E as <-; eauto|discriminate]. Qed.
Lemma window_nonnil {A} n (h : list (option A)) w : 1 <= n -> window n h = Some w -> w <> [].
Proof. intros L E. apply window_length in E. destruct w; [cbn in *; lia|discriminate]. Qed.

(** The value the outputs were computed from: the window (Sma, Wma, Swma). *)
Theorem C13_sma_between len c xs os i v : 1 <= len ->
  run_new (sma_new len) sma_step c (lift xs) = Ok os -> nth_error os i = Some (Some v) ->
  exists w r, window len (firstn (S i) xs) = Some w /\ v = Fin r /\ between w r.
Proof.
  intros L E H. rewrite sma_run_exact in E by exact L. injection E as <-. apply nth_lift_each in H.
  destruct H as (r & -> & H & _). apply opt_map_some in H. destruct H as (w & E & <-). exists w, (Rmean w).
  split; [exact E|split; [reflexivity|]]. apply between_intro; [eapply window_nonnil; eassumption|].
  intros lo hi A. apply Rmean_in; [eapply window_nonnil; eassumption|exact A].
Qed.
Lemma wma_run_exact len c xs : 1 <= len -> c_index c = 0 ->
  run_new (wma_new len) wma_step c (lift xs) =
  Ok (lift (each_prefix (fun h => option_map Rwmean (window len h)) xs)).
Proof.
  intros L Z. rewrite wma_run by exact L. rewrite Z. f_equal. apply lift_each_prefix. intros p _. apply wma_exact; exact L.
Qed.
Lemma swma_run_exact c xs : c_index c = 0 ->
  run_new swma_new swma_step c (lift xs) =
  Ok (lift (each_prefix (fun h => option_map Rswmean (window 4 h)) xs)).
Proof. intros Z. rewrite swma_run, Z. f_equal. apply lift_each_prefix. intros p _. apply swma_exact. Qed.
Theorem C13_wma_between len c xs os i v : 1 <= len -> c_index c = 0 ->
  run_new (wma_new len) wma_step c (lift xs) = Ok os -> nth_error os i = Some (Some v) ->
  exists w r, window len (firstn (S i) xs) = Some w /\ v = Fin r /\ between w r.
Proof.
  intros L Z E H. rewrite wma_run_exact in E by assumption. injection E as <-. apply nth_lift_each in H.
  destruct H as (r & -> & H & _). apply opt_map_some in H. destruct H as (w & E & <-). exists w, (Rwmean w).
  split; [exact E|split; [reflexivity|]]. apply between_intro; [eapply window_nonnil; eassumption|].
  intros lo hi A. apply Rwmean_in; [eapply window_nonnil; eassumption|exact A].
Qed.
Theorem C13_swma_between c xs os i v : c_index c = 0 ->
  run_new swma_new swma_step c (lift xs) = Ok os -> nth_error os i = Some (Some v) ->
  exists w r, window 4 (firstn (S i) xs) = Some w /\ v = Fin r /\ between w r.
Proof.
  intros Z E H. rewrite swma_run_exact in E by assumption. injection E as <-. apply nth_lift_each in H.
  destruct H as (r & -> & H & _). apply opt_map_some in H. destruct H as (w & E & <-). exists w, (Rswmean w).
  split; [exact E|split; [reflexivity|]]. apply between_intro; [eapply window_nonnil; [|eassumption]; lia|].
  intros lo hi A. apply Rswmean_in; [eapply window_length; eassumption|exact A].
Qed.
(** All values so far (Ema, Rma), on gap-free inputs after any warm-up. *)
Lemma smooth_between alpha len vs i r : 1 <= len -> (0 <= alpha <= 1)%R ->
  i < length vs -> Rsmooth alpha len (firstn (S i) vs) = Some r -> between (firstn (S i) vs) r.
Proof.
  intros L A I E. apply between_intro.
  - destruct vs; [cbn in I; lia|discriminate].
  - intros lo hi B. eapply Rsmooth_in; [exact L|exact A|exact B|exact E].
Qed.
Theorem C13_ema_between len c k vs os i v : 1 <= len ->
  run_new (ema_new len) ema_step c (repeat None k ++ full vs) = Ok os -> nth_error os (k + i) = Some (Some v) ->
  exists r, v = Fin r /\ between (firstn (S i) vs) r.
Proof.
  intros L E H. rewrite C11_ema_closed_form in E by exact L. injection E as <-. apply nth_lift_eachv in H.
  destruct H as (r & -> & H & I). exists r. split; [reflexivity|]. eapply smooth_between; [exact L| |exact I|exact H].
  assert (1 <= INR len)%R by (change 1%R with (INR 1); apply le_INR; exact L).
  split; [apply Rmult_le_pos; [lra|left; apply Rinv_0_lt_compat; lra]|].
  apply Rmult_le_reg_r with (INR len + 1)%R; [lra|]. unfold Rdiv. rewrite Rmult_assoc, Rinv_l by lra. lra.
Qed.
Theorem C13_rma_between len c k vs os i v : 1 <= len ->
  run_new (rma_new len) rma_step c (repeat None k ++ full vs) = Ok os -> nth_error os (k + i) = Some (Some v) ->
  exists r, v = Fin r /\ between (firstn (S i) vs) r.
Proof.
  intros L E H. rewrite C12_rma_closed_form in E by exact L. injection E as <-. apply nth_lift_eachv in H.
  destruct H as (r & -> & H & I). exists r. split; [reflexivity|]. eapply smooth_between; [exact L| |exact I|exact H].
  apply inv_len_range; exact L.
Qed.

(** ** C14, C15 *)
Theorem C14_wma len c xs : 1 <= len -> c_index c = 0 ->
  run_new (wma_new len) wma_step c (lift xs) =
  Ok (lift (each_prefix (fun h => option_map Rwmean (window len h)) xs)).
Proof. apply wma_run_exact. Qed.
Theorem C15_swma c xs : c_index c = 0 ->
  run_new swma_new swma_step c (lift xs) =
  Ok (lift (each_prefix (fun h => option_map Rswmean (window 4 h)) xs)).
Proof. apply swma_run_exact. Qed.
Section C14.
  Context {F : Type} {NF : Num F}.
  Theorem C14_wma_defined len (c : ctx F) xs : 1 <= len -> c_index c = 0 ->
    exists os, run_new (wma_new len) wma_step c xs = Ok os /\
      map is_some os = each_prefix (fun h => is_some (window len h)) xs.
  Proof.
    intros L Z. rewrite wma_run by exact L. eexists; split; [reflexivity|]. rewrite each_prefix_map.
    apply each_prefix_ext. intros p. rewrite Z. unfold wma_out, window. cbn [Nat.add].
    destruct (Nat.leb_spec len (length p)); [|reflexivity]. destruct (all_some (lastn len p)); [|reflexivity].
    reflexivity.
  Qed.
  Theorem C15_swma_defined (c : ctx F) xs : c_index c = 0 ->
    exists os, run_new swma_new swma_step c xs = Ok os /\
      map is_some os = each_prefix (fun h => is_some (window 4 h)) xs.
  Proof.
    intros Z. rewrite swma_run. eexists; split; [reflexivity|]. rewrite each_prefix_map.
    apply each_prefix_ext. intros p. rewrite Z. unfold swma_out, window. cbn [Nat.add].
    destruct (Nat.leb_spec 4 (length p)); [|reflexivity]. destruct (all_some (lastn 4 p)); reflexivity.
  Qed.
End C14.
Example C14_ex : gives same_opt (run_new (wma_new 3) wma_step ctx6 (qs [1; 2; 4; 4]%Z)) [None; None; Some (lit 17 6); Some (lit 22 6)] = true.
Proof. vm_compute. reflexivity. Qed.
Example C14_spec_ex : Rwmean [1; 2; 4]%R = (17 / 6)%R.
Proof. unfold Rwmean, triangular; cbn. lra. Qed.
Example C15_spec_ex : Rswmean [1; 2; 4; 8]%R = (21 / 6)%R.
Proof. unfold Rswmean; cbn. lra. Qed.
Example C15_ex : gives same_opt (run_new swma_new swma_step ctx6 [Some (q 6); Some (q 6); Some (q 6); Some (q 6); None])
  [None; None; None; Some (q 6); None] = true.
Proof. vm_compute. reflexivity. Qed.

(** ** C16, C17 *)
Section C16.
  Context {F : Type} {NF : Num F}.
  Local Open Scope num_scope.

  (** What Change computes: the difference, except that a zero old value
      suppresses the output. *)
  Theorem C16_change_partial len (c : ctx F) xs : (1 <= len)%nat ->
    run_new (change_new len) change_step c xs =
    Ok (each_prefix (fun h => match join (ago len h), join (newest h) with
                              | Some old, Some new => if old ==? fZ 0 then None else Some (new - old)
                              | _, _ => None end) xs).
  Proof. intros L. rewrite change_run by exact L. reflexivity. Qed.

  Theorem C17_roc len (c : ctx F) xs : (1 <= len)%nat ->
    run_new (roc_new len) roc_step c xs =
    Ok (each_prefix (fun h => match join (ago len h), join (newest h) with
                              | Some old, Some new => if old ==? fZ 0 then None else Some (fZ 100 * (new - old) / old)
                              | _, _ => None end) xs).
  Proof. intros L. rewrite roc_run by exact L. reflexivity. Qed.
  Theorem C17_roc_length_zero_rejected (c : ctx F) xs : run_new (roc_new 0) roc_step c xs = Panic.
  Proof. reflexivity. Qed.
End C16.

Theorem C17_roc_exact len c xs : 1 <= len ->
  run_new (roc_new len) roc_step c (lift xs) =
  Ok (lift (each_prefix (fun h => match join (ago len h), join (newest h) with
                                  | Some old, Some new => if Req_EM_T old 0 then None else Some (100 * (new - old) / old)%R
                                  | _, _ => None end) xs)).
Proof.
  intros L. rewrite C17_roc by exact L. f_equal. apply lift_each_prefix. intros p _. rewrite lift_ago, lift_newest.
  destruct (join (ago len p)) as [o|], (join (newest p)) as [n|]; try reflexivity.
  cbn [option_map]. rewrite !fin_Z, fin_eq. unfold Reqb. destruct (Req_EM_T o 0); [reflexivity|].
  rewrite fin_sub, fin_mul, fin_div by assumption. reflexivity.
Qed.

(** The property as stated fails: the value one bar ago is present (it is 0)
    and so is the current one, yet nothing is output. *)
Theorem C16_change_refuted :
  ~ (forall (c : ctx f64) len xs, 1 <= len ->
       run_new (change_new len) change_step c xs =
       Ok (each_prefix (fun h => match join (ago len h), join (newest h) with
                                 | Some old, Some new => Some (fsub new old) | _, _ => None end) xs)).
Proof.
  intros H. specialize (H ctx6 1 (qs [0; 5]%Z) (le_n 1)).
  assert (A : gives same_opt (run_new (change_new 1) change_step ctx6 (qs [0; 5]%Z)) [None; Some (q 5)] = false) by (vm_compute; reflexivity).
  rewrite H in A. vm_compute in A. discriminate A.
Qed.
Example C16_ex : gives same_opt (run_new (change_new 2) change_step ctx6 (qs [3; 4; 5; 9]%Z)) [None; None; Some (q 2); Some (q 5)] = true.
Proof. vm_compute. reflexivity. Qed.
Example C17_ex : gives same_opt (run_new (roc_new 1) roc_step ctx6 (qs [4; 5; 0; 3]%Z)) [None; Some (q 25); Some (q (-100)); None] = true.
Proof. vm_compute. reflexivity. Qed.

