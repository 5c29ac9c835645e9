(** * PropTa2: C18-C25 (extrema, dispersion, ranks, Rsi, Stoch, Tr, crosses). *)
From Verif Require Import PTa4 PExact2 PIeee PContent1 Inst.
Local Open Scope nat_scope.

(** ** C18 *)
Section C18.
  Context {F : Type} {NF : Num F} {OF : OrdNum F}.
  Local Open Scope num_scope.

  (** The greatest / least of the present values of the window, when there is one. *)
  Definition extremum_of (is_ext : F -> list F -> Prop) (w : list (option F)) (o : option F) : Prop :=
    match o with
    | Some m => is_ext m (present w)
    | None => present w = []
    end.

  Theorem C18_highest len (c : ctx F) xs : (1 <= len)%nat -> c_index c = 0 -> no_nan (present xs) ->
    exists os, run_new (highest_new len) highest_step c xs = Ok os /\ length os = length xs /\
    forall i o, nth_error os i = Some o ->
      if (S i <? len)%nat then o = None
      else extremum_of greatest (lastn len (firstn (S i) xs)) o.
  Proof.
    intros L Z N. rewrite (makes_run _ _ _ _ c xs (highest_makes len L) I), Z.
    eexists; split; [reflexivity|]. split; [apply length_each_prefix|]. intros i o Ho.
    apply nth_each in Ho. destruct Ho as [Hi ->]. unfold highest_out.
    rewrite firstn_length_le by lia. cbn [Nat.add].
    destruct (Nat.leb_spec len (S i)), (Nat.ltb_spec (S i) len); try lia; [|reflexivity].
    apply best_max. unfold no_nan in *. rewrite Forall_forall in *. intros x Hx. apply N. clear - Hx.
    set (p := firstn (S i) xs) in *. rewrite <- (firstn_skipn (S i) xs). fold p. rewrite present_app. apply in_or_app; left.
    unfold lastn in Hx. rewrite <- (firstn_skipn (length p - len) p), present_app. apply in_or_app; right; exact Hx.
  Qed.
  Theorem C18_lowest len (c : ctx F) xs : (1 <= len)%nat -> c_index c = 0 -> no_nan (present xs) ->
    exists os, run_new (lowest_new len) lowest_step c xs = Ok os /\ length os = length xs /\
    forall i o, nth_error os i = Some o ->
      if (S i <? len)%nat then o = None
      else extremum_of least (lastn len (firstn (S i) xs)) o.
  Proof.
    intros L Z N. rewrite (makes_run _ _ _ _ c xs (lowest_makes len L) I), Z.
    eexists; split; [reflexivity|]. split; [apply length_each_prefix|]. intros i o Ho.
    apply nth_each in Ho. destruct Ho as [Hi ->]. unfold lowest_out.
    rewrite firstn_length_le by lia. cbn [Nat.add].
    destruct (Nat.leb_spec len (S i)), (Nat.ltb_spec (S i) len); try lia; [|reflexivity].
    apply best_min. unfold no_nan in *. rewrite Forall_forall in *. intros x Hx. apply N. clear - Hx.
    set (p := firstn (S i) xs) in *. rewrite <- (firstn_skipn (S i) xs). fold p. rewrite present_app. apply in_or_app; left.
    unfold lastn in Hx. rewrite <- (firstn_skipn (length p - len) p), present_app. apply in_or_app; right; exact Hx.
  Qed.
End C18.
Example C18_ex :
  gives same_opt (run_new (highest_new 3) highest_step ctx6 [Some (q 3); None; Some (q 2); Some (q 1); Some (q 5)])
    [None; None; Some (q 3); Some (q 2); Some (q 5)] = true /\
  gives same_opt (run_new (lowest_new 2) lowest_step ctx6 [Some (q 3); None; None; Some (q 1); Some (q 5)])
    [None; Some (q 3); None; Some (q 1); Some (q 1)] = true.
Proof. split; vm_compute; reflexivity. Qed.

(** ** C19 *)
Section C19.
  Context {F : Type} {NF : Num F} {OF : OrdNum F}.
  Local Open Scope num_scope.

  Lemma bars_out_spec cmp len (w : list (option F)) (ext : list (option F) -> nat -> Prop) :
    (1 <= len)%nat ->
    (forall w, no_nan (present w) -> present w <> [] -> exists j, find_loop cmp w 0 None None = Some j /\ ext w j) ->
    (forall w j, ext w j -> (j < length w)%nat) ->
    no_nan (present w) ->
    if (length w <? len)%nat then bars_out cmp len w = None
    else exists k, (k < len)%nat /\ bars_out cmp len w = Some (- Z.of_nat k)%Z /\
         (present (lastn len w) <> [] -> ext (lastn len w) (len - 1 - k)%nat).
  Proof.
    intros L HF HL N. unfold bars_out. destruct (Nat.ltb_spec (length w) len), (Nat.leb_spec len (length w)); try lia; [reflexivity|].
    assert (LW : length (lastn len w) = len) by (rewrite length_lastn; lia).
    exists (best_pos cmp (lastn len w)).
    assert (NW : no_nan (present (lastn len w))).
    { unfold no_nan in *. rewrite Forall_forall in *. intros x Hx. apply N.
      unfold lastn in Hx. rewrite <- (firstn_skipn (length w - len) w), present_app. apply in_or_app; right; exact Hx. }
    unfold best_pos. destruct (present (lastn len w)) as [|y l] eqn:EP.
    - pose proof (find_loop_start cmp (lastn len w) 0) as FS. destruct (find_loop cmp (lastn len w) 0 None None).
      + destruct FS as (_ & _ & FS). congruence.
      + split; [lia|split; [reflexivity|congruence]].
    - rewrite <- EP in NW. destruct (HF (lastn len w) NW) as (j & -> & EX); [congruence|].
      pose proof (HL _ _ EX) as HJ. rewrite LW in *. split; [lia|split; [reflexivity|]]. intros _.
      replace (len - 1 - (len - 1 - j))%nat with j by lia. exact EX.
  Qed.
  Lemma find_max_ok (w : list (option F)) : no_nan (present w) -> present w <> [] ->
    exists j, find_loop (fun v m => m <? v) w 0 None None = Some j /\ first_max w j.
  Proof.
    intros N P. destruct (find_loop_best (fun v m : F => m <? v)) with (arr := w) (i := 0) as (j & E & _ & H); try assumption.
    - intros a b c0 A B. eapply lt_trans; eassumption.
    - intros a b c0 Hc A. destruct (lt_cotrans _ _ _ Hc A); auto.
    - intros a. apply lt_irrefl.
    - exists j. split; [exact E|]. rewrite Nat.sub_0_r in H. apply first_best_max; assumption.
  Qed.
  Lemma find_min_ok (w : list (option F)) : no_nan (present w) -> present w <> [] ->
    exists j, find_loop (fun v m => v <? m) w 0 None None = Some j /\ first_min w j.
  Proof.
    intros N P. destruct (find_loop_best (fun v m : F => v <? m)) with (arr := w) (i := 0) as (j & E & _ & H); try assumption.
    - intros a b c0 A B. eapply lt_trans; eassumption.
    - intros a b c0 Hc A. destruct (lt_cotrans _ _ _ Hc A); auto.
    - intros a. apply lt_irrefl.
    - exists j. split; [exact E|]. rewrite Nat.sub_0_r in H. apply first_best_min; assumption.
  Qed.

  (** Offset [-k], where the bar [k] bars ago (position [len-1-k] of the window
      of the last [len] highs, oldest first) is the earliest greatest one. *)
  Theorem C19_highest_bars len (c : ctx F) bs : (1 <= len)%nat -> (Z.of_nat len <= 2 ^ 31)%Z ->
    fresh_over c bs -> no_nan (present (map b_high bs)) ->
    exists os, run_new (highest_bars_new len) highest_bars_step c (ticks (length bs)) = Ok os /\ length os = length bs /\
    forall i o, nth_error os i = Some o ->
      let w := lastn len (firstn (S i) (map b_high bs)) in
      if (S i <? len)%nat then o = None
      else exists k, (k < len)%nat /\ o = Some (- Z.of_nat k)%Z /\
           (present w <> [] -> first_max w (len - 1 - k)).
  Proof.
    intros L L31 HF N. unfold run_new, highest_bars_new. destruct (Nat.leb_spec 1 len); [|lia]. cbn [assertb rbind].
    rewrite highest_bars_run by assumption. eexists; split; [reflexivity|]. split; [apply length_each_prefix|].
    intros i o Ho. apply nth_each in Ho. destruct Ho as [Hi ->]. cbn zeta. rewrite firstn_map.
    assert (LW : length (map b_high (firstn (S i) bs)) = S i) by (rewrite map_length, firstn_length_le; lia).
    pose proof (bars_out_spec (fun v m => m <? v) len (map b_high (firstn (S i) bs)) first_max L find_max_ok) as B.
    rewrite LW in B. destruct (Nat.ltb_spec (S i) len).
    - apply B; [intros w j (m & Hm & _); apply nth_error_Some; congruence|].
      unfold no_nan in *. rewrite Forall_forall in *. intros x Hx. apply N.
      rewrite <- (firstn_skipn (S i) bs), map_app, present_app. apply in_or_app; left; exact Hx.
    - apply B; [intros w j (m & Hm & _); apply nth_error_Some; congruence|].
      unfold no_nan in *. rewrite Forall_forall in *. intros x Hx. apply N.
      rewrite <- (firstn_skipn (S i) bs), map_app, present_app. apply in_or_app; left; exact Hx.
  Qed.
  Theorem C19_lowest_bars len (c : ctx F) bs : (1 <= len)%nat -> (Z.of_nat len <= 2 ^ 31)%Z ->
    fresh_over c bs -> no_nan (present (map b_low bs)) ->
    exists os, run_new (lowest_bars_new len) lowest_bars_step c (ticks (length bs)) = Ok os /\ length os = length bs /\
    forall i o, nth_error os i = Some o ->
      let w := lastn len (firstn (S i) (map b_low bs)) in
      if (S i <? len)%nat then o = None
      else exists k, (k < len)%nat /\ o = Some (- Z.of_nat k)%Z /\
           (present w <> [] -> first_min w (len - 1 - k)).
  Proof.
    intros L L31 HF N. unfold run_new, lowest_bars_new. destruct (Nat.leb_spec 1 len); [|lia]. cbn [assertb rbind].
    rewrite lowest_bars_run by assumption. eexists; split; [reflexivity|]. split; [apply length_each_prefix|].
    intros i o Ho. apply nth_each in Ho. destruct Ho as [Hi ->]. cbn zeta. rewrite firstn_map.
    assert (LW : length (map b_low (firstn (S i) bs)) = S i) by (rewrite map_length, firstn_length_le; lia).
    pose proof (bars_out_spec (fun v m => v <? m) len (map b_low (firstn (S i) bs)) first_min L find_min_ok) as B.
    rewrite LW in B. destruct (Nat.ltb_spec (S i) len).
    - apply B; [intros w j (m & Hm & _); apply nth_error_Some; congruence|].
      unfold no_nan in *. rewrite Forall_forall in *. intros x Hx. apply N.
      rewrite <- (firstn_skipn (S i) bs), map_app, present_app. apply in_or_app; left; exact Hx.
    - apply B; [intros w j (m & Hm & _); apply nth_error_Some; congruence|].
      unfold no_nan in *. rewrite Forall_forall in *. intros x Hx. apply N.
      rewrite <- (firstn_skipn (S i) bs), map_app, present_app. apply in_or_app; left; exact Hx.
  Qed.
End C19.
Example C19_ex : run_new (highest_bars_new 3) highest_bars_step ctx6 (ticks 6) =
  Ok [None; None; Some 0%Z; Some (-1)%Z; Some (-2)%Z; Some 0%Z].
Proof. vm_compute. reflexivity. Qed.
Example C19_ties_ex : first_max [Some (q 2); Some (q 7); None; Some (q 7)] 1.
Proof.
  exists (q 7). split; [reflexivity|]. split.
  - intros [|[|[|[|[]]]]] v E; cbn in E; try discriminate; injection E as <-; vm_compute; reflexivity.
  - intros [|k] v K E; [|lia]. cbn in E; injection E as <-; vm_compute; reflexivity.
Qed.

(** ** C20 *)
Theorem C20_dev len c xs : 2 <= len ->
  run_new (dev_new len) dev_step c (lift xs) =
  Ok (lift (each_prefix (fun h => option_map Rmad (window len h)) xs)).
Proof.
  intros L. rewrite (makes_run _ _ _ _ c (lift xs) (dev_makes (F:=xr) len ltac:(lia)) I). f_equal.
  apply lift_each_prefix. intros p Hp. apply dev_exact; [exact L|eapply nonnil_prefix; exact Hp].
Qed.
(** What Stdev computes, exactly: deviations smaller than 1e-10 count as 0. *)
Theorem C20_stdev_snapped (biased : bool) len c xs : 2 <= len ->
  run_new (stdev_new len biased) stdev_step c (lift xs) =
  Ok (lift (each_prefix (fun h => option_map (fun w => sqrt (Rssd_snap w / (INR len - if biased then 0 else 1)))%R
                                             (window len h)) xs)).
Proof.
  intros L. rewrite (makes_run _ _ _ _ c (lift xs) (stdev_makes (F:=xr) biased len ltac:(lia)) I). f_equal.
  apply lift_each_prefix. intros p Hp. apply stdev_exact; [exact L|eapply nonnil_prefix; exact Hp].
Qed.
Section C20.
  Local Open Scope R_scope.
  Lemma snap_sq d : d ^ 2 - 1 / 10 ^ 20 <= snap d ^ 2 <= d ^ 2.
  Proof.
    unfold snap. destruct (Rlt_dec (Rabs d) (1 / 10000000000)) as [H|H]; [|lra].
    assert (d ^ 2 <= 1 / 10 ^ 20).
    { rewrite <- (pow2_abs d). pose proof (Rabs_pos d).
      replace (1 / 10 ^ 20) with ((1 / 10000000000) ^ 2) by lra. apply pow_incr. lra. }
    pose proof (pow2_ge_0 d). lra.
  Qed.
  Lemma ssd_snap l : Rssd l - INR (length l) / 10 ^ 20 <= Rssd_snap l <= Rssd l.
  Proof.
    unfold Rssd, Rssd_snap. generalize (Rmean l). intros m. induction l as [|x l IH]; [cbn; lra|].
    cbn [map Rsum]. change (length (x :: l)) with (S (length l)). rewrite S_INR.
    pose proof (snap_sq (x - m)). lra.
  Qed.
  Lemma sqrt_gap a b e : 0 <= a <= b -> 0 <= e -> b <= a + e * e -> 0 <= sqrt b - sqrt a <= e.
  Proof.
    intros A E B. split; [pose proof (sqrt_le_1_alt a b ltac:(lra)); lra|].
    assert (sqrt b <= sqrt a + e); [|lra].
    apply Rsqr_incr_0_var; [|pose proof (sqrt_pos a); lra]. unfold Rsqr. rewrite sqrt_sqrt by lra.
    pose proof (sqrt_pos a). pose proof (sqrt_sqrt a ltac:(lra)). nra.
  Qed.
  (** The textbook value, up to the effect of the snapping: at most 1.5e-10. *)
  Theorem C20_stdev (biased : bool) len c xs os i v : (2 <= len)%nat ->
    run_new (stdev_new len biased) stdev_step c (lift xs) = Ok os -> nth_error os i = Some (Some v) ->
    exists w r, window len (firstn (S i) xs) = Some w /\ v = Fin r /\
      0 <= sqrt (Rssd w / (INR len - if biased then 0 else 1)) - r <= 15 / 100000000000.
  Proof.
    intros L E H. rewrite C20_stdev_snapped in E by exact L. injection E as <-.
    assert (Hi : (i < length xs)%nat).
    { erewrite <- (length_each_prefix _ xs), <- lift_length. apply nth_error_Some. rewrite H. discriminate. }
    unfold lift in H. rewrite (map_nth_error _ _ _ (nth_error_each_prefix _ xs i Hi)) in H.
    remember (firstn (S i) xs) as p. destruct (window len p) as [w|] eqn:W; [|discriminate].
    cbn [option_map] in H. injection H as <-. exists w. eexists. split; [reflexivity|]. split; [reflexivity|].
    pose proof (ssd_snap w) as S. rewrite (window_length _ _ _ W) in S. pose proof (Rssd_snap_nonneg w) as P.
    assert (L2 : 2 <= INR len) by (change 2 with (INR 2); apply le_INR; exact L).
    set (n := INR len - (if biased then 0 else 1)).
    assert (N : INR len / 2 <= n) by (unfold n; destruct biased; lra).
    apply sqrt_gap.
    - split; [apply Rmult_le_pos; [exact P|left; apply Rinv_0_lt_compat; lra]|].
      apply Rmult_le_compat_r; [left; apply Rinv_0_lt_compat; lra|apply S].
    - lra.
    - apply Rle_trans with ((Rssd_snap w + INR len / 10 ^ 20) / n).
      + apply Rmult_le_compat_r; [left; apply Rinv_0_lt_compat; lra|lra].
      + unfold Rdiv at 1. rewrite Rmult_plus_distr_r. apply Rplus_le_compat_l.
        apply Rmult_le_reg_r with n; [lra|]. rewrite Rmult_assoc, Rinv_l by lra. lra.
  Qed.
  (** defined exactly on full gap-free windows. *)
  Theorem C20_stdev_defined (biased : bool) len c xs os : (2 <= len)%nat ->
    run_new (stdev_new len biased) stdev_step c (lift xs) = Ok os ->
    map is_some os = each_prefix (fun h => is_some (window len h)) xs.
  Proof.
    intros L E. rewrite C20_stdev_snapped in E by exact L. injection E as <-. unfold lift. rewrite map_map, each_prefix_map.
    apply each_prefix_ext. intros p. destruct (window len p); reflexivity.
  Qed.
  Lemma mean_const (x : R) n : (1 <= n)%nat -> Rmean (repeat x n) = x.
  Proof.
    intros L. unfold Rmean. rewrite repeat_length. assert (P : 0 < INR n) by (apply PExact.INR_pos; exact L).
    assert (S : Rsum (repeat x n) = INR n * x).
    { clear L P. induction n as [|n IH]; [cbn; lra|]. change (repeat x (S n)) with (x :: repeat x n). cbn [Rsum].
      rewrite IH, S_INR. lra. }
    rewrite S. field. lra.
  Qed.
  (** Zero on a constant window. *)
  Theorem C20_zero_on_constant len c xs os i v biased x :
    (2 <= len)%nat -> window len (firstn (S i) xs) = Some (repeat x len) ->
    (run_new (stdev_new len biased) stdev_step c (lift xs) = Ok os \/
     run_new (dev_new len) dev_step c (lift xs) = Ok os) ->
    nth_error os i = Some (Some v) -> v = Fin 0.
  Proof.
    intros L W H Hv.
    assert (Z : forall m, Rsum (map (fun _ : R => 0) (repeat x m)) = 0) by (induction m; cbn; lra).
    assert (IN : forall (g : R -> R) m, g x = 0 -> map g (repeat x m) = map (fun _ => 0) (repeat x m))
      by (intros g m G; induction m; cbn; [reflexivity|rewrite G, IHm; reflexivity]).
    assert (M : Rmean (repeat x len) = x) by (apply mean_const; lia).
    assert (K : forall (f : list (option R) -> option R), f (firstn (S i) xs) = Some 0 ->
      nth_error (lift (each_prefix f xs)) i = Some (Some v) -> v = Fin 0).
    { intros f F0 E. assert (Hi : (i < length xs)%nat).
      { rewrite <- (length_each_prefix f xs), <- lift_length. apply nth_error_Some. rewrite E. discriminate. }
      unfold lift in E. rewrite (map_nth_error _ _ _ (nth_error_each_prefix f xs i Hi)), F0 in E.
      cbn in E. congruence. }
    destruct H as [E|E].
    - rewrite C20_stdev_snapped in E by exact L. injection E as <-. revert Hv. apply K. rewrite W. cbn [option_map]. f_equal.
      unfold Rssd_snap. rewrite M, IN, Z; [unfold Rdiv; rewrite Rmult_0_l; apply sqrt_0|].
      unfold snap. rewrite Rminus_diag_eq by reflexivity. rewrite Rabs_R0. destruct (Rlt_dec 0 (1 / 10000000000)); lra.
    - rewrite C20_dev in E by exact L. injection E as <-. revert Hv. apply K. rewrite W. cbn [option_map]. f_equal.
      unfold Rmad, Rmean at 1. rewrite M, IN, Z; [unfold Rdiv; rewrite Rmult_0_l; reflexivity|].
      rewrite Rminus_diag_eq by reflexivity. apply Rabs_R0.
  Qed.
  Theorem C20_nonneg len c xs os i v biased :
    (2 <= len)%nat ->
    (run_new (stdev_new len biased) stdev_step c (lift xs) = Ok os \/
     run_new (dev_new len) dev_step c (lift xs) = Ok os) ->
    nth_error os i = Some (Some v) -> exists r, v = Fin r /\ 0 <= r.
  Proof.
    intros L H Hv.
    assert (K : forall (f : list (option R) -> option R), (forall p r, f p = Some r -> 0 <= r) ->
      nth_error (lift (each_prefix f xs)) i = Some (Some v) -> exists r, v = Fin r /\ 0 <= r).
    { intros f F0 E. assert (Hi : (i < length xs)%nat).
      { rewrite <- (length_each_prefix f xs), <- lift_length. apply nth_error_Some. rewrite E. discriminate. }
      unfold lift in E. rewrite (map_nth_error _ _ _ (nth_error_each_prefix f xs i Hi)) in E.
      remember (firstn (S i) xs) as p. destruct (f p) as [r|] eqn:FP; [|discriminate]. cbn in E. injection E as <-.
      exists r. split; [reflexivity|]. eapply F0; exact FP. }
    destruct H as [E|E].
    - rewrite C20_stdev_snapped in E by exact L. injection E as <-. revert Hv. apply K. intros p r. destruct (window len p); [|discriminate].
      cbn. intros Q; injection Q as <-. apply sqrt_pos.
    - rewrite C20_dev in E by exact L. injection E as <-. revert Hv. apply K. intros p r. destruct (window len p) as [w|] eqn:W; [|discriminate].
      cbn. intros Q; injection Q as <-. unfold Rmad. unfold Rmean at 1. rewrite map_length.
      apply window_length in W. apply Rmult_le_pos; [|left; apply Rinv_0_lt_compat, PExact.INR_pos; lia].
      apply Rsum_nonneg. apply Forall_forall. intros y Hy. apply in_map_iff in Hy. destruct Hy as (z & <- & _). apply Rabs_pos.
  Qed.
End C20.
Example C20_ex :
  gives same_opt (run_new (stdev_new 4 true) stdev_step ctx6 (qs [1; 1; 3; 3]%Z)) [None; None; None; Some (q 1)] = true.
Proof. vm_compute. reflexivity. Qed.
