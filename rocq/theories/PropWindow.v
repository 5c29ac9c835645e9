(** * PropWindow: C70, C71 (what a window remembers, and when it is full). *)
From Flocq Require Import IEEE754.BinarySingleNaN.
From Verif Require Import PTa4 IEEE.
Local Open Scope nat_scope.

(** ** C70: bad values and the window *)

(** The components whose output is a function of the last [len] inputs only:
    whatever came before, and wherever the series started. *)
Section C70.
  Context {F : Type} {NF : Num F}.
  Local Notation hist := (list (option F)).

  (** After any two histories that end with the same [len] inputs, the two
      current outputs are the same; neither run panics. *)
  Definition window_only {S} (len : nat) (new : res S) (step : ctx F -> S -> option F -> res (S * option F)) : Prop :=
    forall (c1 c2 : ctx F) (h1 h2 w : hist), length w = len ->
    exists os1 os2, run_new new step c1 (h1 ++ w) = Ok os1 /\ run_new new step c2 (h2 ++ w) = Ok os2 /\
      newest os1 = newest os2.

  Lemma newest_each {A B} (f : list A -> B) xs : xs <> [] -> newest (each_prefix f xs) = Some (f xs).
  Proof.
    intros H. destruct (exists_last H) as [p [x ->]]. rewrite each_prefix_snoc, newest_snoc. reflexivity.
  Qed.
  Lemma lastn_app_r {A} (h w : list A) : lastn (length w) (h ++ w) = w.
  Proof.
    unfold lastn. rewrite app_length. replace (length h + length w - length w) with (length h) by lia.
    rewrite skipn_app, Nat.sub_diag, skipn_all2 by lia. reflexivity.
  Qed.
  Lemma window_only_intro {S} len (new : res S) step (f : nat -> hist -> option F) g : 1 <= len ->
    makes new step anyh f -> (forall i0 h w, length w = len -> f i0 (h ++ w) = g w) -> window_only len new step.
  Proof.
    intros L M E c1 c2 h1 h2 w W.
    do 2 eexists. split; [|split].
    - exact (makes_run _ _ _ _ c1 (h1 ++ w) M I).
    - exact (makes_run _ _ _ _ c2 (h2 ++ w) M I).
    - assert (N : forall h : hist, h ++ w <> []) by (intros [|] Q; destruct w; cbn in *; try discriminate; lia).
      rewrite !newest_each by apply N. rewrite !E by exact W. reflexivity.
  Qed.
  Lemma full_test len i0 (h w : hist) : length w = len -> (len <=? i0 + length (h ++ w)) = true.
  Proof. intros. rewrite app_length. apply Nat.leb_le. lia. Qed.

  Theorem C70_highest_partial len : 1 <= len -> window_only len (highest_new len) highest_step.
  Proof.
    intros L. apply window_only_intro with (highest_out len) (highest_out len 0); [exact L|apply highest_makes, L|].
    intros i0 h w W. subst len. unfold highest_out. rewrite lastn_app_r, full_test by reflexivity.
    rewrite lastn_all, Nat.leb_refl by lia. reflexivity.
  Qed.
  Theorem C70_lowest_partial len : 1 <= len -> window_only len (lowest_new len) lowest_step.
  Proof.
    intros L. apply window_only_intro with (lowest_out len) (lowest_out len 0); [exact L|apply lowest_makes, L|].
    intros i0 h w W. subst len. unfold lowest_out. rewrite lastn_app_r, full_test by reflexivity.
    rewrite lastn_all, Nat.leb_refl by lia. reflexivity.
  Qed.
  Theorem C70_wma_partial len : 1 <= len -> window_only len (wma_new len) wma_step.
  Proof.
    intros L. apply window_only_intro with (wma_out len) (wma_out len 0); [exact L|apply wma_makes, L|].
    intros i0 h w W. subst len. unfold wma_out. rewrite lastn_app_r, full_test by reflexivity.
    rewrite lastn_all, Nat.leb_refl by lia. reflexivity.
  Qed.
  Theorem C70_swma_partial : window_only 4 swma_new swma_step.
  Proof.
    apply window_only_intro with swma_out (swma_out 0); [lia|apply swma_makes|].
    intros i0 h w W. unfold swma_out. rewrite (full_test 4 i0 h w W).
    replace (4 <=? 0 + length w) with true by (rewrite W; reflexivity).
    pose proof (lastn_app_r h w) as Q. rewrite W in Q. rewrite Q, lastn_all by lia. reflexivity.
  Qed.
  (** The percent rank compares the current value with the [len] before it. *)
  Theorem C70_prank_partial len : 1 <= len -> window_only (len + 1) (prank_new len) prank_step.
  Proof.
    intros L. apply window_only_intro with (prank_out len) (prank_out len 0); [lia|apply prank_makes, L|].
    intros i0 h w W.
    assert (N : w <> []) by (intros ->; cbn in W; lia).
    destruct (exists_last N) as [w' [x ->]]. rewrite app_length in W; cbn in W.
    unfold prank_out. rewrite app_assoc, !newest_snoc, !removelast_last, !app_length. cbn [join length].
    replace (len <? i0 + (length h + length w' + 1)) with true by (symmetry; apply Nat.ltb_lt; lia).
    replace (len <? 0 + (length w' + 1)) with true by (symmetry; apply Nat.ltb_lt; lia).
    assert (Q : length w' = len) by lia. subst len. rewrite lastn_app_r, lastn_all by lia. reflexivity.
  Qed.
  Theorem C70_change_partial len : 1 <= len -> window_only (len + 1) (change_new len) change_step.
  Proof.
    intros L. apply window_only_intro with (fun _ => change_out len) (change_out len); [lia|apply change_makes, L|].
    intros i0 h w W. rewrite <- (lastn_app_r h w) at 2. unfold change_out.
    assert (A : forall k, k < length w -> ago k (h ++ w) = ago k (lastn (length w) (h ++ w))).
    { intros k K. rewrite lastn_app_r. unfold ago. rewrite app_length.
      destruct (Nat.ltb_spec k (length h + length w)); [|lia]. destruct (Nat.ltb_spec k (length w)); [|lia].
      rewrite nth_error_app2 by lia. f_equal. lia. }
    assert (B : newest (h ++ w) = newest (lastn (length w) (h ++ w))).
    { rewrite lastn_app_r. unfold newest. rewrite app_length. rewrite nth_error_app2 by lia. f_equal. lia. }
    rewrite A, B by lia. reflexivity.
  Qed.
  Theorem C70_roc_partial len : 1 <= len -> window_only (len + 1) (roc_new len) roc_step.
  Proof.
    intros L. apply window_only_intro with (fun _ => roc_out len) (roc_out len); [lia|apply roc_makes, L|].
    intros i0 h w W. rewrite <- (lastn_app_r h w) at 2. unfold roc_out.
    assert (A : forall k, k < length w -> ago k (h ++ w) = ago k (lastn (length w) (h ++ w))).
    { intros k K. rewrite lastn_app_r. unfold ago. rewrite app_length.
      destruct (Nat.ltb_spec k (length h + length w)); [|lia]. destruct (Nat.ltb_spec k (length w)); [|lia].
      rewrite nth_error_app2 by lia. f_equal. lia. }
    assert (B : newest (h ++ w) = newest (lastn (length w) (h ++ w))).
    { rewrite lastn_app_r. unfold newest. rewrite app_length. rewrite nth_error_app2 by lia. f_equal. lia. }
    rewrite A, B by lia. reflexivity.
  Qed.
End C70.

(** In exact arithmetic Sum and Sma are window-only as well (C09, C10); in f64
    they are not: one infinite or NaN input spoils every output that follows,
    however many finite values are fed after it. *)
Section Poison.
  Variable log10 : f64 -> f64.
  #[local] Instance NFp : Num f64 := IEEE log10.

  Definition bad (x : f64) : Prop := is_finite x = false.

  Lemma bad_add_l x y : bad x -> bad (fadd x y).
  Proof. destruct x as [|[]| |], y as [|[]| |]; cbn; try discriminate; reflexivity. Qed.
  Lemma bad_add_r x y : bad y -> bad (fadd x y).
  Proof. destruct x as [|[]| |], y as [|[]| |]; cbn; try discriminate; reflexivity. Qed.
  Lemma bad_sub_l x y : bad x -> bad (fsub x y).
  Proof. destruct x as [|[]| |], y as [|[]| |]; cbn; try discriminate; reflexivity. Qed.
  Lemma bad_div_l x y : bad x -> bad (fdiv x y).
  Proof. destruct x as [|[]| |], y as [|[]| |]; cbn; try discriminate; reflexivity. Qed.

  Lemma racc_bad len (h1 : list (option f64)) (b : f64) h2 : bad b -> bad (racc len (h1 ++ Some b :: h2)).
  Proof.
    intros B. induction h2 as [|x h2 IH] using rev_ind.
    - rewrite racc_snoc. unfold oadd, osub.
      destruct (join _); [apply bad_sub_l|]; apply bad_add_r, B.
    - replace (h1 ++ Some b :: h2 ++ [x]) with ((h1 ++ Some b :: h2) ++ [x]) by (rewrite <- app_assoc; reflexivity).
      rewrite racc_snoc. unfold osub, oadd.
      destruct (join _), x; try apply bad_sub_l; try apply bad_add_l; exact IH.
  Qed.
  Lemma rsum_bad len (h1 : list (option f64)) (b : f64) h2 : bad b -> bad (rsum len (h1 ++ Some b :: h2)).
  Proof.
    intros B. destruct h2 as [|x h2 _] using rev_ind.
    - rewrite rsum_snoc. apply bad_add_r, B.
    - replace (h1 ++ Some b :: h2 ++ [x]) with ((h1 ++ Some b :: h2) ++ [x]) by (rewrite <- app_assoc; reflexivity).
      rewrite rsum_snoc. destruct x; [apply bad_add_l|]; apply racc_bad, B.
  Qed.
  Lemma firstn_past {A} (h1 : list A) x h2 i : length h1 <= i ->
    firstn (S i) (h1 ++ x :: h2) = h1 ++ x :: firstn (i - length h1) h2.
  Proof. intros L. rewrite firstn_app, firstn_all2 by lia. replace (S i - length h1) with (S (i - length h1)) by lia. reflexivity. Qed.

  (** For every length, history, position of the bad value and later bar. *)
  Theorem C70_sum_refuted len (c : ctx f64) (h1 : list (option f64)) (b : f64) (h2 : list (option f64)) os i v : 1 <= len -> is_finite b = false ->
    run_new (sum_new len) sum_step c (h1 ++ Some b :: h2) = Ok os ->
    length h1 <= i -> nth_error os i = Some (Some v) -> is_finite v = false.
  Proof.
    intros L B R G E. rewrite sum_run in R by exact L. injection R as <-.
    assert (I' : i < length (h1 ++ Some b :: h2)).
    { rewrite <- (length_each_prefix (sum_out len)). apply nth_error_Some. rewrite E. discriminate. } rewrite nth_error_each_prefix in E by exact I'.
    rewrite firstn_past in E by exact G. injection E as E. unfold sum_out in E.
    destruct (window len _); [|discriminate]. injection E as <-. apply rsum_bad, B.
  Qed.
  Theorem C70_sma_refuted len (c : ctx f64) (h1 : list (option f64)) (b : f64) (h2 : list (option f64)) os i v : 2 <= len -> is_finite b = false ->
    run_new (sma_new len) sma_step c (h1 ++ Some b :: h2) = Ok os ->
    length h1 <= i -> nth_error os i = Some (Some v) -> is_finite v = false.
  Proof.
    intros L B R G E. rewrite sma_run in R by lia. injection R as <-.
    assert (I' : i < length (h1 ++ Some b :: h2)).
    { rewrite <- (length_each_prefix (sma_out len)). apply nth_error_Some. rewrite E. discriminate. } rewrite nth_error_each_prefix in E by exact I'.
    rewrite firstn_past in E by exact G. injection E as E. unfold sma_out in E.
    destruct (Nat.eqb_spec len 1); [lia|].
    destruct (window len _); [|discriminate]. injection E as <-. apply bad_div_l, rsum_bad, B.
  Qed.

  (** So the property fails for Sum and Sma at every length: after an infinite
      input and any number [n >= len] of zeros the output is not finite, while
      the zeros alone give zero. *)
  Notation o64 := (@fZ f64 NFp 0).
  Lemma zero_ops : fadd o64 o64 = o64 /\ fsub o64 o64 = o64.
  Proof. split; reflexivity. Qed.
  Lemma repeat_snoc {A} (x : A) n : repeat x (S n) = repeat x n ++ [x].
  Proof. induction n as [|n IH]; [reflexivity|]. cbn [repeat app] in *. rewrite IH at 1. reflexivity. Qed.
  Lemma racc_zeros len n : 1 <= len -> racc len (repeat (Some o64) n) = o64.
  Proof.
    intros L. induction n as [|n IH]; [reflexivity|].
    rewrite repeat_snoc, racc_snoc, IH. cbn [oadd]. rewrite (proj1 zero_ops).
    assert (Q : join (ago (len - 1) (repeat (Some o64) n ++ [Some o64])) = Some o64 \/
                join (ago (len - 1) (repeat (Some o64) n ++ [Some o64])) = None).
    { rewrite <- repeat_snoc. unfold ago. destruct (_ <? _) eqn:T; [|right; reflexivity].
      left. rewrite repeat_length in *. apply Nat.ltb_lt in T.
      rewrite (nth_error_nth' _ (Some o64)) by (rewrite repeat_length; lia). rewrite nth_repeat. reflexivity. }
    destruct Q as [-> | ->]; cbn [osub]; [apply zero_ops|reflexivity].
  Qed.
  Lemma rsum_zeros len n : 1 <= len -> rsum len (repeat (Some o64) (S n)) = o64.
  Proof. intros L. rewrite repeat_snoc, rsum_snoc, racc_zeros by exact L. apply zero_ops. Qed.
  Lemma window_zeros len n : 1 <= len -> len <= n -> window len (repeat (Some o64) n) = Some (repeat o64 len).
  Proof.
    intros L G. unfold window. rewrite repeat_length. destruct (Nat.leb_spec len n); [|lia].
    apply all_some_Some. unfold lastn. rewrite repeat_length.
    replace n with ((n - len) + len) at 2 by lia. rewrite repeat_app, skipn_app, repeat_length, Nat.sub_diag.
    rewrite skipn_all2 by (rewrite repeat_length; lia). cbn. clear. induction len; cbn; congruence.
  Qed.

  Definition spoilt (o : option (option f64)) : Prop := exists v, o = Some (Some v) /\ is_finite v = false.

  Theorem C70_sum_not_window_refuted len n (c : ctx f64) : 1 <= len -> len <= n ->
    exists os os', run_new (sum_new len) sum_step c (Some (B754_infinity false : f64) :: repeat (Some o64) n) = Ok os /\
      run_new (sum_new len) sum_step c (repeat (Some o64) n) = Ok os' /\
      spoilt (newest os) /\ newest os' = Some (Some o64).
  Proof.
    intros L G. rewrite !sum_run by exact L. do 2 eexists. split; [reflexivity|split; [reflexivity|]].
    destruct n as [|n]; [lia|]. rewrite !newest_each by discriminate. split.
    - eexists. unfold sum_out, window. cbn [length]. rewrite repeat_length.
      destruct (Nat.leb_spec len (S (S n))); [|lia].
      assert (W : lastn len (Some (B754_infinity false : f64) :: repeat (Some o64) (S n)) = lastn len (repeat (Some o64) (S n))).
      { unfold lastn. cbn [length]. rewrite repeat_length. replace (S (S n) - len) with (S (S n - len)) by lia. reflexivity. }
      rewrite W. pose proof (window_zeros len (S n) L G) as Z. unfold window in Z. rewrite repeat_length in Z.
      destruct (Nat.leb_spec len (S n)); [|lia]. rewrite Z. split; [reflexivity|].
      apply (rsum_bad len []). reflexivity.
    - unfold sum_out. rewrite window_zeros by assumption. cbn [option_map]. rewrite rsum_zeros by exact L. reflexivity.
  Qed.

  Theorem C70_sma_not_window_refuted len n (c : ctx f64) : 2 <= len -> len <= n ->
    exists os os' z, run_new (sma_new len) sma_step c (Some (B754_infinity false : f64) :: repeat (Some o64) n) = Ok os /\
      run_new (sma_new len) sma_step c (repeat (Some o64) n) = Ok os' /\
      spoilt (newest os) /\ newest os' = Some (Some z) /\ z = fdiv o64 (fnat len).
  Proof.
    intros L G. rewrite !sma_run by lia. do 3 eexists. split; [reflexivity|split; [reflexivity|]].
    destruct n as [|n]; [lia|]. rewrite !newest_each by discriminate.
    unfold sma_out. destruct (Nat.eqb_spec len 1); [lia|]. split; [|split; [|reflexivity]].
    - eexists. unfold window. cbn [length]. rewrite repeat_length.
      destruct (Nat.leb_spec len (S (S n))); [|lia].
      assert (W : lastn len (Some (B754_infinity false : f64) :: repeat (Some o64) (S n)) = lastn len (repeat (Some o64) (S n))).
      { unfold lastn. cbn [length]. rewrite repeat_length. replace (S (S n) - len) with (S (S n - len)) by lia. reflexivity. }
      rewrite W. pose proof (window_zeros len (S n) ltac:(lia) G) as Z. unfold window in Z. rewrite repeat_length in Z.
      destruct (Nat.leb_spec len (S n)); [|lia]. rewrite Z. split; [reflexivity|].
      apply bad_div_l, (rsum_bad len []). reflexivity.
    - rewrite window_zeros by lia. cbn [option_map]. rewrite rsum_zeros by lia. reflexivity.
  Qed.
End Poison.

From Verif Require Import Inst.
(** The bad input leaves the window, the later values are all 1. *)
Example C70_ex : match run_new (sma_new 2) sma_step ctx6
      [Some (q 1); Some (B754_infinity false); Some (q 1); Some (q 1); Some (q 1)] with
  | Ok [None; Some a; Some b; Some d; Some e] => is_finite a || is_finite b || is_finite d || is_finite e
  | _ => true end = false /\
  gives same_opt (run_new (highest_new 2) highest_step ctx6
      [Some (q 1); Some (B754_infinity false); Some (q 1); Some (q 1); Some (q 2)])
    [None; Some (B754_infinity false); Some (B754_infinity false); Some (q 1); Some (q 2)] = true.
Proof. split; vm_compute; reflexivity. Qed.

(** ** C71: started in the middle of a series *)
Section C71.
  Context {F : Type} {NF : Num F}.
  Local Notation hist := (list (option F)).

  (** [need] values have to be fed before anything is output, wherever the
      context starts. *)
  Definition waits_for {S I} (need : nat) (new : res S) (step : ctx F -> S -> I -> res (S * option F)) : Prop :=
    forall (c : ctx F) xs os i v, run_new new step c xs = Ok os -> nth_error os i = Some (Some v) -> need <= i + 1.

  Lemma waits_intro {S} need (new : res S) step (f : nat -> hist -> option F) :
    makes new step anyh f -> (forall i0 h v, f i0 h = Some v -> need <= length h) -> waits_for need new step.
  Proof.
    intros M E c xs os i v R N. rewrite (makes_run _ _ _ _ c xs M I) in R. injection R as <-.
    assert (B : i < length xs) by (rewrite <- (length_each_prefix (f (c_index c))); apply nth_error_Some; rewrite N; discriminate).
    rewrite nth_error_each_prefix in N by exact B. assert (N' : f (c_index c) (firstn (Datatypes.S i) xs) = Some v) by congruence. apply E in N'.
    rewrite firstn_length in N'. lia.
  Qed.
  Lemma window_full {A} n (h : list (option A)) w : window n h = Some w -> n <= length h.
  Proof. unfold window. destruct (Nat.leb_spec n (length h)); [auto|discriminate]. Qed.
  Lemma ago_full {A} n (h : list (option A)) w : join (ago n h) = Some w -> n + 1 <= length h.
  Proof. unfold ago. destruct (Nat.ltb_spec n (length h)); [lia|discriminate]. Qed.

  Theorem C71_sum_partial len : 1 <= len -> waits_for len (sum_new len) sum_step.
  Proof.
    intros L. apply waits_intro with (fun _ => sum_out len); [apply sum_makes, L|].
    intros _ h v E. unfold sum_out in E. destruct (window len h) eqn:W; [|discriminate]. eapply window_full, W.
  Qed.
  Theorem C71_sma_partial len : 1 <= len -> waits_for len (sma_new len) sma_step.
  Proof.
    intros L. apply waits_intro with (fun _ => sma_out len); [apply sma_makes, L|].
    intros _ h v E. unfold sma_out in E. destruct (Nat.eqb_spec len 1) as [->|].
    - destruct h; [discriminate|cbn; lia].
    - destruct (window len h) eqn:W; [|discriminate]. eapply window_full, W.
  Qed.
  Theorem C71_dev_partial len : 2 <= len -> waits_for len (dev_new len) dev_step.
  Proof.
    intros L. apply waits_intro with (fun _ => dev_out len); [apply dev_makes; lia|].
    intros _ h v E. unfold dev_out in E. destruct (Nat.eqb_spec len 1); [lia|].
    destruct (window len h) eqn:W; [|discriminate]. eapply window_full, W.
  Qed.
  Theorem C71_stdev_partial b len : 2 <= len -> waits_for len (stdev_new len b) stdev_step.
  Proof.
    intros L. apply waits_intro with (fun _ => stdev_out b len); [apply stdev_makes; lia|].
    intros _ h v E. unfold stdev_out in E. destruct (Nat.eqb_spec len 1); [lia|].
    destruct (window len h) eqn:W; [|discriminate]. eapply window_full, W.
  Qed.
  Theorem C71_change_partial len : 1 <= len -> waits_for (len + 1) (change_new len) change_step.
  Proof.
    intros L. apply waits_intro with (fun _ => change_out len); [apply change_makes, L|].
    intros _ h v E. unfold change_out in E. destruct (join (ago len h)) eqn:W; [|discriminate]. eapply ago_full, W.
  Qed.
  Theorem C71_roc_partial len : 1 <= len -> waits_for (len + 1) (roc_new len) roc_step.
  Proof.
    intros L. apply waits_intro with (fun _ => roc_out len); [apply roc_makes, L|].
    intros _ h v E. unfold roc_out in E. destruct (join (ago len h)) eqn:W; [|discriminate]. eapply ago_full, W.
  Qed.
  Lemma ema_waits len alpha : 2 <= len -> waits_for len (ema_with_alpha len alpha) ema_step.
  Proof.
    intros L c xs os i v R. rewrite ema_with_alpha_run in R by lia. apply ema_runs_spec in R; [|exact L].
    destruct R as [Len R]. revert v. induction i as [|i IH]; intros v N.
    - assert (B : 0 < length xs) by (rewrite <- Len; apply nth_error_Some; rewrite N; discriminate).
      destruct xs as [|x xs]; [cbn in B; lia|]. specialize (R 0 x eq_refl). cbn [before] in R. rewrite N in R.
      injection R as R. symmetry in R. rewrite sma_out_short in R; [discriminate|exact L|cbn; lia].
    - assert (B : S i < length xs) by (rewrite <- Len; apply nth_error_Some; rewrite N; discriminate).
      destruct (nth_error xs (S i)) as [x|] eqn:X; [|apply nth_error_None in X; lia].
      specialize (R (S i) x X). cbn [before] in R.
      destruct (nth_error os i) as [[p|]|] eqn:P; cbn [join] in R.
      + specialize (IH p eq_refl). lia.
      + rewrite N in R. injection R as R. symmetry in R.
        destruct (Nat.ltb_spec (length (firstn (S (S i)) xs)) len) as [G|G].
        * rewrite sma_out_short in R by assumption. discriminate.
        * rewrite firstn_length in G. lia.
      + apply nth_error_None in P. lia.
  Qed.
  Theorem C71_ema_partial len : 2 <= len -> waits_for len (ema_new len) ema_step.
  Proof. intros L. apply ema_waits, L. Qed.
  Theorem C71_rma_partial len : 2 <= len -> waits_for len (rma_new len) rma_step.
  Proof. intros L. rewrite rma_new_eq by lia. apply ema_waits, L. Qed.

  (** The others decide by the bar index whether their window is full.  Started
      at bar [c_index c], they output a value as soon as that index plus the
      number of values fed reaches [len], although fewer than [len] values have
      been fed. *)
  Definition early {S I} (new : res S) (step : ctx F -> S -> I -> res (S * option F)) (c : ctx F) (xs : list I) : Prop :=
    exists os v, run_new new step c xs = Ok os /\ newest os = Some (Some v).

  Lemma early_intro {S I} (new : res S) (step : ctx F -> S -> I -> res (S * option F)) f c (xs : list I) :
    makes new step anyh f -> xs <> [] -> f (c_index c) xs <> None -> early new step c xs.
  Proof.
    intros M N E. destruct (f (c_index c) xs) as [v|] eqn:Q; [|congruence].
    eexists _, v. split; [exact (makes_run _ _ _ _ c xs M Logic.I)|]. rewrite newest_each, Q by exact N. reflexivity.
  Qed.
  Lemma best_some cmp (vs : list F) : vs <> [] -> best cmp vs <> None.
  Proof. destruct vs; [congruence|discriminate]. Qed.
  Lemma present_map_Some {A} (vs : list A) : present (map Some vs) = vs.
  Proof. induction vs; cbn; congruence. Qed.
  Lemma short_last {A} len (vs : list A) : length vs < len -> lastn len (map Some vs) = map Some vs.
  Proof. intros. apply lastn_all. rewrite map_length. lia. Qed.
  Lemma nonnil {A B} (g : A -> B) (l : list A) : 1 <= length l -> l <> [] /\ map g l <> [].
  Proof. destruct l; cbn; [lia|split; discriminate]. Qed.

  Theorem C71_highest_refuted len (c : ctx F) vs : 1 <= length vs -> length vs < len -> len <= c_index c + length vs ->
    early (highest_new len) highest_step c (map Some vs).
  Proof.
    intros A B C. eapply early_intro; [apply highest_makes; lia|apply nonnil, A|].
    unfold highest_out. rewrite map_length. destruct (Nat.leb_spec len (c_index c + length vs)); [|lia].
    rewrite short_last, present_map_Some by exact B. apply best_some, (nonnil (@Some F) _ A).
  Qed.
  Theorem C71_lowest_refuted len (c : ctx F) vs : 1 <= length vs -> length vs < len -> len <= c_index c + length vs ->
    early (lowest_new len) lowest_step c (map Some vs).
  Proof.
    intros A B C. eapply early_intro; [apply lowest_makes; lia|apply nonnil, A|].
    unfold lowest_out. rewrite map_length. destruct (Nat.leb_spec len (c_index c + length vs)); [|lia].
    rewrite short_last, present_map_Some by exact B. apply best_some, (nonnil (@Some F) _ A).
  Qed.
  Theorem C71_wma_refuted len (c : ctx F) vs : 1 <= length vs -> length vs < len -> len <= c_index c + length vs ->
    early (wma_new len) wma_step c (map Some vs).
  Proof.
    intros A B C. eapply early_intro; [apply wma_makes; lia|apply nonnil, A|].
    unfold wma_out. rewrite map_length. destruct (Nat.leb_spec len (c_index c + length vs)); [|lia].
    rewrite short_last, all_some_map_Some by exact B. discriminate.
  Qed.
  Theorem C71_swma_refuted (c : ctx F) vs : 1 <= length vs -> length vs < 4 -> 4 <= c_index c + length vs ->
    early swma_new swma_step c (map Some vs).
  Proof.
    intros A B C. eapply early_intro; [apply swma_makes|apply nonnil, A|].
    unfold swma_out. rewrite map_length. destruct (Nat.leb_spec 4 (c_index c + length vs)); [|lia].
    rewrite short_last, all_some_map_Some by exact B. discriminate.
  Qed.
  Theorem C71_prank_refuted len (c : ctx F) vs : 1 <= len -> 1 <= length vs -> length vs < len -> len < c_index c + length vs ->
    early (prank_new len) prank_step c (map Some vs).
  Proof.
    intros L A B C. eapply early_intro; [apply prank_makes; lia|apply nonnil, A|].
    unfold prank_out. rewrite map_length. destruct (Nat.ltb_spec len (c_index c + length vs)); [|lia].
    destruct (nonnil (@Some F) _ A) as [N _]. destruct (exists_last N) as [p [x ->]].
    rewrite map_app; cbn [map]. rewrite newest_snoc. discriminate.
  Qed.
  Theorem C71_stoch_refuted len (c : ctx F) v h l k : (fsub h l ==? fZ 0)%num = false ->
    1 <= k -> k < len -> len <= c_index c + k ->
    early (stoch_new len) stoch_step c (repeat (Some v, Some h, Some l) k).
  Proof.
    intros D A B C. eapply early_intro; [apply stoch_makes; lia|destruct k; [lia|discriminate]|].
    destruct k as [|k]; [lia|].
    assert (Rs : forall {A} (x : A) n, repeat x (S n) = repeat x n ++ [x]) by (intros; apply (repeat_cons n x)).
    rewrite Rs, stoch_out_snoc, repeat_length.
    destruct (Nat.leb_spec len (c_index c + k + 1)); [|lia].
    assert (Bm : forall cmp (x : F) n, best cmp (present (lastn len (repeat (Some x) n ++ [Some x]))) = Some x \/ len <= n).
    { intros cmp x n. rewrite <- Rs. destruct (Nat.le_gt_cases len n); [auto|left].
      rewrite lastn_all by (rewrite repeat_length; lia).
      assert (P : present (repeat (Some x) (S n)) = repeat x (S n)) by (induction (S n); cbn; congruence).
      rewrite P. cbn [repeat best]. f_equal. clear. induction n; [reflexivity|]. cbn [repeat].
      rewrite beats_cons. destruct (cmp x x); exact IHn. }
    assert (M1 : map (fun y : option F * option F * option F => snd (fst y)) (repeat (Some v, Some h, Some l) k) = repeat (Some h) k)
      by (clear; induction k; cbn; congruence).
    assert (M2 : map (@snd (option F * option F) (option F)) (repeat (Some v, Some h, Some l) k) = repeat (Some l) k)
      by (clear; induction k; cbn; congruence).
    rewrite M1, M2.
    destruct (Bm (fun v m => (m <? v)%num) h k) as [->|]; [|lia].
    destruct (Bm (fun v m => (v <? m)%num) l k) as [->|]; [|lia].
    rewrite D. discriminate.
  Qed.
End C71.

(** A provider whose data starts being visited at bar 3. *)
Definition ctx_from3 : ctx f64 :=
  mkCtx (mkProvider (map b_open bars6) (map b_high bars6) (map b_low bars6) (map b_close bars6)
           (map b_volume bars6) (repeat None 6) 3 5) 3 5 3 3 false.
Example C71_ctx_ex : ctx_new (c_data ctx_from3) = Ok ctx_from3 /\ c_index ctx_from3 = 3.
Proof. split; reflexivity. Qed.
Example C71_ex : early (highest_new 4) highest_step ctx_from3 [Some (q 7)] /\
  gives same_opt (run_new (sma_new 2) sma_step ctx_from3 (qs [7; 9]%Z)) [None; Some (q 8)] = true /\
  (fsub (q 12) (q 9) ==? fZ 0)%num = false.
Proof.
  split; [apply (C71_highest_refuted 4 ctx_from3 [q 7]); cbn; lia|]. split; vm_compute; reflexivity.
Qed.
