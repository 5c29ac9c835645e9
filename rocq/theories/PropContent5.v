(** * PropContent5: C63-C68. *)
From Verif Require Import PTa4 PExact3 Inst PropTa3 PropContent2 PropContent3 PropContent4.

(** ** C63 *)
Section C63.
  Context {F : Type} {NF : Num F}.
  Local Open Scope num_scope.
  Definition body (b : bar F) : option F := minus (b_close b) (b_open b).
  Definition span (b : bar F) : option F := minus (b_high b) (b_low b).
  Theorem C63_vigor len (c : ctx F) bs : (1 <= len)%nat -> fresh_over c bs ->
    exists ws vs sw sv sig os,
      run_new swma_new swma_step c (map body bs) = Ok ws /\ run_new swma_new swma_step c (map span bs) = Ok vs /\
      run_new (sum_new len) sum_step c ws = Ok sw /\ run_new (sum_new len) sum_step c vs = Ok sv /\
      run_new swma_new swma_step c (zip quot sw sv) = Ok sig /\
      run_new (rvgi_new len) rvgi_step c (ticks (length bs)) = Ok os /\ os = combine (zip quot sw sv) sig.
  Proof.
    intros L H. rewrite (rvgi_run len c bs L H). rewrite !(makes_run _ _ _ _ c _ swma_makes I), (fresh_c_index _ _ H), !each_prefix_of_map.
    do 6 eexists. do 2 (split; [reflexivity|]). rewrite !(makes_run _ _ _ _ c _ (sum_makes len L) I), !each_prefix_each_prefix.
    do 2 (split; [reflexivity|]). rewrite zip_each, !(makes_run _ _ _ _ c _ swma_makes I), (fresh_c_index _ _ H), each_prefix_each_prefix.
    do 2 (split; [reflexivity|]). rewrite combine_each. reflexivity.
  Qed.
End C63.
Section C63x.
  Local Open Scope R_scope.
  (** All windows of [n] consecutive elements. *)
  Fixpoint windows {A} (n : nat) (l : list A) : list (list A) :=
    match l with [] => [] | _ :: t => if (n <=? length l)%nat then firstn n l :: windows n t else [] end.
  Lemma windows_short {A} n (l : list A) : (length l < n)%nat -> windows n l = [].
  Proof. destruct l as [|x l]; [reflexivity|]. intros H. cbn [windows]. destruct (Nat.leb_spec n (length (x :: l))); [lia|reflexivity]. Qed.
  Lemma windows_snoc {A} n (l : list A) x : (1 <= n)%nat -> (n <= S (length l))%nat -> windows n (l ++ [x]) = windows n l ++ [lastn n (l ++ [x])].
  Proof.
    intros N. induction l as [|y l IH]; intros H.
    - assert (n = 1%nat) by (cbn in H; lia). subst. reflexivity.
    - cbn [length] in H. change ((y :: l) ++ [x]) with (y :: (l ++ [x])). cbn [windows]. cbn [length]. rewrite app_length. cbn [length].
      destruct (Nat.leb_spec n (S (length l + 1))) as [Q|Q]; [|lia]. destruct (Nat.leb_spec n (S (length l))) as [P|P].
      + change (y :: l ++ [x]) with ((y :: l) ++ [x]). rewrite firstn_app. replace (n - length (y :: l))%nat with 0%nat by (cbn [length]; lia).
        cbn [firstn]. rewrite app_nil_r. cbn [app]. f_equal. rewrite IH by lia.
        change (y :: l ++ [x]) with ([y] ++ (l ++ [x])). rewrite (lastn_app_r n [y] (l ++ [x])) by (rewrite app_length; cbn; lia). reflexivity.
      + assert (n = S (S (length l))) by lia. subst n. rewrite !windows_short by (rewrite ?app_length; cbn; lia).
        cbn [app]. f_equal. rewrite firstn_all2 by (cbn [length]; rewrite app_length; cbn; lia).
        unfold lastn. cbn [length]. rewrite app_length. cbn [length]. replace (S (length l + 1) - S (S (length l)))%nat with 0%nat by lia. reflexivity.
  Qed.
  Lemma windows_In {A} n (l : list A) w : In w (windows n l) -> length w = n /\ forall x, In x w -> In x l.
  Proof.
    induction l as [|y l IH]; intros H; [destruct H|]. cbn [windows] in H. destruct (Nat.leb_spec n (length (y :: l))) as [Q|Q]; [|destruct H].
    destruct H as [<-|H]; [split; [apply firstn_length_le; exact Q|intros x; apply firstn_In]|]. destruct (IH H) as [E I]. split; [exact E|]. intros x Ix. right. exact (I x Ix).
  Qed.
  (** the series of a function of the last [n] values. *)
  Lemma windows_series {A} (f : list A -> R) n h : (1 <= n)%nat ->
    each_prefix (fun p => option_map (fun w => Fin (f w)) (full_window n p)) h = warm (Nat.min (n - 1) (length h)) (map Fin (map f (windows n h))).
  Proof.
    intros N. induction h as [|x h IH] using rev_ind; [cbn [length]; rewrite Nat.min_0_r; reflexivity|]. rewrite each_prefix_snoc, IH. unfold full_window at 1. rewrite app_length. cbn [length].
    destruct (Nat.leb_spec n (length h + 1)) as [Q|Q].
    - rewrite windows_snoc by lia. rewrite !map_app. cbn [map option_map]. replace (Nat.min (n - 1) (length h + 1)) with (n - 1)%nat by lia. replace (Nat.min (n - 1) (length h)) with (n - 1)%nat by lia.
      unfold warm. rewrite !map_app, app_assoc. reflexivity.
    - rewrite !windows_short by (rewrite ?app_length; cbn; lia). cbn [map option_map]. unfold warm. cbn [map]. rewrite !app_nil_r.
      replace (Nat.min (n - 1) (length h + 1)) with (length h + 1)%nat by lia. replace (Nat.min (n - 1) (length h)) with (length h) by lia. rewrite repeat_app. reflexivity.
  Qed.
  Definition Rbody (r : rbar5) : R := rc r - ro r.
  Definition Rspan (r : rbar5) : R := rh r - rl r.
  (** Sum over the last [len] four-bar weighted means of the bodies, over that
      of the ranges. *)
  Definition vigor (len : nat) (h : list rbar5) : option R :=
    match full_window len (windows 4 h) with
    | None => None
    | Some ws =>
        let a := Rsum (map (fun w => Rswmean (map Rbody w)) ws) in
        let b := Rsum (map (fun w => Rswmean (map Rspan w)) ws) in
        if Req_EM_T b 0 then None else Some (a / b)
    end.
  Lemma swma_series (k : bar xr -> option xr) g h : (forall r, k (bar_of r) = Some (Fin (g r))) ->
    each_prefix (swma_of k) (map bar_of h) = warm (Nat.min 3 (length h)) (map Fin (map (fun w => Rswmean (map g w)) (windows 4 h))).
  Proof.
    intros E. rewrite each_prefix_of_map. change (Nat.min 3 (length h)) with (Nat.min (4 - 1) (length h)). rewrite <- (windows_series (fun w => Rswmean (map g w)) 4 h ltac:(lia)). apply each_prefix_ext. intros p.
    unfold swma_of. rewrite (col_full k g) by exact E. rewrite full_warm, swma_warm, full_window_map. destruct (full_window 4 p); reflexivity.
  Qed.
  Lemma vigor_exact len h : (1 <= len)%nat -> rvgi_rvi len (map bar_of h) = option_map Fin (vigor len h).
  Proof.
    intros L. unfold rvgi_rvi, vigor. rewrite (swma_series rvgi_co Rbody), (swma_series rvgi_hl Rspan) by (intros r; reflexivity).
    rewrite !sum_warm, !full_window_map by exact L. destruct (full_window len (windows 4 h)) as [ws|]; [|reflexivity]. cbn [option_map ps_div]. rewrite fin_Z, fin_eq.
    destruct (Reqb_spec (Rsum (map (fun w => Rswmean (map Rspan w)) ws)) 0) as [E|E]; cbv zeta; destruct (Req_EM_T _ 0); try contradiction; [reflexivity|].
    rewrite fin_div by exact E. reflexivity.
  Qed.
  Lemma swmean_abs (w : list rbar5) : length w = 4%nat -> Forall consistent w -> Rabs (Rswmean (map Rbody w)) <= Rswmean (map Rspan w).
  Proof.
    intros L F. destruct w as [|a [|b [|d [|e [|? ?]]]]]; try discriminate. cbn [map]. inversion F as [|? ? Ca F1]; subst. inversion F1 as [|? ? Cb F2]; subst. inversion F2 as [|? ? Cd F3]; subst. inversion F3 as [|? ? Ce _]; subst.
    unfold consistent in *. unfold Rswmean, Rbody, Rspan. apply Rabs_le. lra.
  Qed.
  Lemma Rsum_abs_le' {A} (g k : A -> R) w : (forall r, In r w -> Rabs (g r) <= k r) -> Rabs (Rsum (map g w)) <= Rsum (map k w).
  Proof. apply Rsum_abs_le. Qed.
  Lemma vigor_range len h v : Forall consistent h -> vigor len h = Some v -> -1 <= v <= 1.
  Proof.
    intros C. unfold vigor. destruct (full_window len (windows 4 h)) as [ws|] eqn:W; [|discriminate]. cbv zeta. destruct (Req_EM_T _ 0) as [|N]; [discriminate|].
    intros E. apply some_inj in E. subst v. apply ratio_abs; [|exact N]. apply Rsum_abs_le. intros w I.
    apply full_window_Some in W. destruct W as (-> & _ & _). apply lastn_In in I. apply windows_In in I. destruct I as [L I]. apply swmean_abs; [exact L|].
    apply Forall_forall. intros r Ir. rewrite Forall_forall in C. apply C, I, Ir.
  Qed.
  Theorem C63_exact len (c : ctx xr) rs : (1 <= len)%nat -> fresh_over c (map bar_of rs) ->
    exists os, run_new (rvgi_new len) rvgi_step c (ticks (length rs)) = Ok os /\ length os = length rs /\
    forall i o, nth_error os i = Some o ->
      let h := firstn (S i) rs in
      fst o = option_map Fin (vigor len h) /\
      snd o = option_map (fun w => Fin (Rswmean w)) (window 4 (each_prefix (vigor len) h)) /\
      (Forall consistent h ->
         (forall v, fst o = Some v -> exists r, v = Fin r /\ -1 <= r <= 1) /\
         (forall v, snd o = Some v -> exists r, v = Fin r /\ -1 <= r <= 1)).
  Proof.
    intros L H. pose proof (rvgi_run len c _ L H) as R. rewrite map_length in R. rewrite R.
    eexists; split; [reflexivity|]. split; [rewrite length_each_prefix, map_length; reflexivity|].
    intros i o Ho h. apply nth_each in Ho. destruct Ho as [Hi ->]. rewrite firstn_map. fold h. unfold rvgi_out. cbn [fst snd].
    rewrite vigor_exact by exact L. split; [reflexivity|].
    assert (ES : each_prefix (rvgi_rvi len) (map bar_of h) = lift (each_prefix (vigor len) h)).
    { rewrite each_prefix_of_map. unfold lift. rewrite each_prefix_map. apply each_prefix_ext. intros p. apply vigor_exact. exact L. }
    rewrite ES, swma_exact.
    assert (EW : option_map Fin (option_map Rswmean (window 4 (each_prefix (vigor len) h))) = option_map (fun w => Fin (Rswmean w)) (window 4 (each_prefix (vigor len) h))) by (destruct (window 4 _); reflexivity).
    split; [exact EW|]. intros C. split.
    - intros v E. destruct (vigor len h) as [r|] eqn:V; [|discriminate]. apply some_inj in E. subst v. exists r. split; [reflexivity|]. exact (vigor_range _ _ _ C V).
    - intros v E. destruct (window 4 (each_prefix (vigor len) h)) as [w|] eqn:W; [|discriminate]. apply some_inj in E. subst v. eexists; split; [reflexivity|].
      pose proof (window_length _ _ _ W) as LW. unfold window in W. destruct (4 <=? _)%nat; [|discriminate]. apply all_some_Some in W.
      assert (B : forall r, In r w -> -1 <= r <= 1).
      { intros r Ir. assert (I2 : In (Some r) (lastn 4 (each_prefix (vigor len) h))) by (rewrite W; apply in_map; exact Ir). apply lastn_In in I2. unfold each_prefix in I2. apply in_map_iff in I2. destruct I2 as (p & V & Ip).
        apply in_prefixes in Ip. destruct Ip as (m & _ & ->). apply (vigor_range len (firstn (S m) h)); [|exact V]. rewrite Forall_forall in *. intros x Ix. apply C. exact (firstn_In _ _ _ Ix). }
      destruct w as [|a [|b [|d [|e [|? ?]]]]]; try discriminate.
      assert (B1 := B a ltac:(cbn; tauto)). assert (B2 := B b ltac:(cbn; tauto)). assert (B3 := B d ltac:(cbn; tauto)). assert (B4 := B e ltac:(cbn; tauto)).
      unfold Rswmean. lra.
  Qed.
End C63x.
Example C63_ex :
  match run_new (rvgi_new 2) rvgi_step ctx6 (ticks 6) with
  | Ok os => map (fun o => match fst o with Some v => Some (fltb (q (-1)) v && fltb v (q 1)) | None => None end) os
  | Panic => [] end = [None; None; None; None; Some true; Some true].
Proof. vm_compute. reflexivity. Qed.

(** ** C64 *)
Section C64.
  Context {F : Type} {NF : Num F}.
  Local Open Scope num_scope.
  (** The deviation [sd] counts as upward volatility when the value rose (zero
      when it did not), as downward volatility when it did not rise. *)
  Definition up_dev (prev cur sd : option F) : option F :=
    match prev, cur with Some p, Some v => if v - p <=? fZ 0 then Some (fZ 0) else sd | _, _ => None end.
  Definition down_dev (prev cur sd : option F) : option F :=
    match prev, cur with Some p, Some v => if fZ 0 <? v - p then Some (fZ 0) else sd | _, _ => None end.
  Definition up_share (u l : option F) : option F :=
    match u, l with Some u, Some l => if u ==? - l then None else Some (u / (u + l) * fZ 100) | _, _ => None end.
  Lemma rvoli_pipe n : forall (c : ctx F) src d u l prev,
    run rvoli_step c (mkRvoli src d u l prev) (ticks n) =
    (xs <- run ostep c src (ticks n) ;;
     sds <- run stdev_step c d xs ;;
     us <- run ema_step c u (zip3 up_dev (prev :: xs) xs sds) ;;
     ls <- run ema_step c l (zip3 down_dev (prev :: xs) xs sds) ;; Ok (zip up_share us ls)).
  Proof.
    induction n as [|n IH]; intros c src d u l prev; [reflexivity|].
    cbn [ticks repeat]. rewrite !run_cons. fold (ticks n). unfold rvoli_step at 1. cbn [rv_src rv_sd rv_up rv_lo rv_prev].
    destruct (ostep c src tt) as [[s1 x1]|] eqn:E1; cbn [rbind]; [|reflexivity].
    destruct (stdev_step c d x1) as [[s2 x2]|] eqn:E2; cbn [rbind].
    2:{ destruct (run ostep (ctx_advance c) s1 (ticks n)); cbn [rbind]; [|reflexivity]. rewrite run_cons, E2. reflexivity. }
    replace (rvoli_upper (ps_diff x1 prev) x2) with (up_dev prev x1 x2) by (destruct prev, x1; reflexivity).
    replace (rvoli_lower (ps_diff x1 prev) x2) with (down_dev prev x1 x2) by (destruct prev, x1; reflexivity).
    destruct (ema_step c u (up_dev prev x1 x2)) as [[s3 x3]|] eqn:E3; cbn [rbind].
    2:{ destruct (run ostep (ctx_advance c) s1 (ticks n)) as [xs|]; cbn [rbind]; [|reflexivity]. rewrite run_cons, E2. cbn [rbind].
        destruct (run stdev_step (ctx_advance c) s2 xs) as [sds|]; cbn [rbind]; [|reflexivity]. unfold zip3, zip. cbn [combine map fst snd]. rewrite run_cons, E3. reflexivity. }
    destruct (ema_step c l (down_dev prev x1 x2)) as [[s4 x4]|] eqn:E4; cbn [rbind].
    2:{ destruct (run ostep (ctx_advance c) s1 (ticks n)) as [xs|]; cbn [rbind]; [|reflexivity]. rewrite run_cons, E2. cbn [rbind].
        destruct (run stdev_step (ctx_advance c) s2 xs) as [sds|]; cbn [rbind]; [|reflexivity]. unfold zip3, zip. cbn [combine map fst snd]. rewrite !run_cons, E3, E4. cbn [rbind].
        destruct (run ema_step _ s3 _); reflexivity. }
    rewrite IH. destruct (run ostep (ctx_advance c) s1 (ticks n)) as [xs|]; cbn [rbind]; [|reflexivity]. rewrite run_cons, E2. cbn [rbind].
    destruct (run stdev_step (ctx_advance c) s2 xs) as [sds|]; cbn [rbind]; [|reflexivity].
    change (zip3 up_dev (prev :: x1 :: xs) (x1 :: xs) (x2 :: sds)) with (up_dev prev x1 x2 :: zip3 up_dev (x1 :: xs) xs sds).
    change (zip3 down_dev (prev :: x1 :: xs) (x1 :: xs) (x2 :: sds)) with (down_dev prev x1 x2 :: zip3 down_dev (x1 :: xs) xs sds).
    rewrite !run_cons, E3, E4. cbn [rbind].
    destruct (run ema_step (ctx_advance c) s3 _) as [us|]; cbn [rbind]; [|reflexivity]. destruct (run ema_step (ctx_advance c) s4 _) as [ls|]; reflexivity.
  Qed.
  (** For any source, panics included. *)
  Theorem C64_volatility len ma (c : ctx F) src n : (1 <= len)%nat -> (1 <= ma)%nat ->
    run_new (rvoli_new src len ma) rvoli_step c (ticks n) =
    (xs <- run ostep c src (ticks n) ;;
     sds <- run_new (stdev_new len true) stdev_step c xs ;;
     us <- run_new (ema_new ma) ema_step c (zip3 up_dev (None :: xs) xs sds) ;;
     ls <- run_new (ema_new ma) ema_step c (zip3 down_dev (None :: xs) xs sds) ;; Ok (zip up_share us ls)).
  Proof.
    intros L M. unfold run_new, rvoli_new.
    destruct (stdev_makes true len L) as (d & -> & _). destruct (ema_makes ma M) as (e & -> & _). cbn [rbind]. apply rvoli_pipe.
  Qed.
End C64.
Section C64p.
  Context {F : Type} {NF : Num F}.
  Local Open Scope num_scope.
  Lemma nth_zip3 {A B C D} (f : A -> B -> C -> D) l m n i a b c : nth_error l i = Some a -> nth_error m i = Some b -> nth_error n i = Some c ->
    nth_error (zip3 f l m n) i = Some (f a b c).
  Proof.
    intros Ea Eb Ec. unfold zip3, zip. erewrite map_nth_error; [|apply nth_error_combine; [apply nth_error_combine; eassumption|eassumption]]. reflexivity.
  Qed.
  Lemma zip3_length {A B C D} (f : A -> B -> C -> D) l m n : length (zip3 f l m n) = Nat.min (Nat.min (length l) (length m)) (length n).
  Proof. unfold zip3, zip. rewrite map_length, !combine_length. reflexivity. Qed.
  Lemma zip3_inv {A B C D} (f : A -> B -> C -> D) l m n i d : nth_error (zip3 f l m n) i = Some d ->
    exists a b c, nth_error l i = Some a /\ nth_error m i = Some b /\ nth_error n i = Some c /\ d = f a b c.
  Proof.
    intros E. assert (Hi : (i < length (zip3 f l m n))%nat) by (apply nth_error_Some; congruence). rewrite zip3_length in Hi.
    destruct (nth_error l i) as [a|] eqn:Ea; [|apply nth_error_None in Ea; lia]. destruct (nth_error m i) as [b|] eqn:Eb; [|apply nth_error_None in Eb; lia].
    destruct (nth_error n i) as [c|] eqn:Ec; [|apply nth_error_None in Ec; lia]. rewrite (nth_zip3 f l m n i a b c Ea Eb Ec) in E. injection E as <-. exists a, b, c. auto.
  Qed.
  Lemma all_some_nth {A} (l : list (option A)) w i : all_some l = Some w -> (i < length l)%nat -> nth_error l i <> Some None.
  Proof. intros E Hi N. apply nth_error_In in N. rewrite (all_some_None l N) in E. discriminate. Qed.
  Lemma repeat_of_nth {A} (x : A) n : forall l, length l = n -> (forall j, (j < n)%nat -> nth_error l j = Some x) -> l = repeat x n.
  Proof.
    induction n as [|n IH]; intros l L H; [destruct l; [reflexivity|discriminate]|]. destruct l as [|y l]; [discriminate|]. cbn [repeat].
    pose proof (H 0%nat ltac:(lia)) as H0. injection H0 as ->. f_equal. apply IH; [injection L as L; exact L|]. intros j Hj. exact (H (S j) ltac:(lia)).
  Qed.
  Lemma map_repeat {A B} (f : A -> B) x n : map f (repeat x n) = repeat (f x) n.
  Proof. induction n; cbn; congruence. Qed.
  (** a full window contains no missing value. *)
  Lemma nth_skipn {A} (l : list A) a k : nth_error (skipn a l) k = nth_error l (a + k).
  Proof. revert l; induction a as [|a IH]; intros l; [reflexivity|]. destruct l as [|x l]; [destruct k; reflexivity|]. apply IH. Qed.
  Lemma nth_firstn {A} (l : list A) n k : (k < n)%nat -> nth_error (firstn n l) k = nth_error l k.
  Proof. revert l k; induction n as [|n IH]; intros l k H; [lia|]. destruct l as [|x l]; [reflexivity|]. destruct k as [|k]; [reflexivity|]. cbn [firstn nth_error]. apply IH. lia. Qed.
  Lemma window_no_gap {A} n (xs : list (option A)) i w k : (i < length xs)%nat -> window n (firstn (S i) xs) = Some w ->
    (n <= S i)%nat /\ ((S i <= k + n)%nat -> (k <= i)%nat -> nth_error xs k <> Some None).
  Proof.
    intros Hi. unfold window. rewrite firstn_length_le by lia. destruct (Nat.leb_spec n (S i)) as [Q|Q]; [|discriminate]. intros E. split; [exact Q|]. intros K1 K2.
    rewrite <- (nth_firstn xs (S i) k) by lia. unfold lastn in E. rewrite firstn_length_le in E by lia.
    replace k with ((S i - n) + (k - (S i - n)))%nat by lia. rewrite <- nth_skipn. apply (all_some_nth _ _ _ E). rewrite skipn_length, firstn_length_le by lia. lia.
  Qed.
  (** A volatility series of gap-free data: where it may be missing. *)
  Lemma dev_gaps (f : option F -> option F -> option F -> option F) len (vs : list F) j :
    (forall p v s, f (Some p) (Some v) s = s \/ f (Some p) (Some v) s = Some (fZ 0)) ->
    nth_error (zip3 f (None :: map Some vs) (map Some vs) (each_prefix (stdev_out true len) (map Some vs))) j = Some None ->
    j = 0%nat \/ (j + 2 <= len)%nat.
  Proof.
    intros D N. destruct j as [|j]; [left; reflexivity|right]. apply zip3_inv in N. destruct N as (a & b & s & Ea & Eb & Es & E).
    cbn [nth_error] in Ea. apply nth_each in Es. destruct Es as [Hi ->]. rewrite map_length in Hi.
    rewrite nth_error_map in Ea, Eb. destruct (nth_error vs j); [|discriminate]. destruct (nth_error vs (S j)); [|discriminate]. injection Ea as <-. injection Eb as <-.
    destruct (D f0 f1 (stdev_out true len (firstn (S (S j)) (map Some vs)))) as [Q|Q]; rewrite Q in E; [|discriminate].
    unfold stdev_out in E. destruct (len =? 1)%nat; [discriminate|]. unfold window in E. rewrite firstn_map, map_length, firstn_length_le in E by lia.
    destruct (Nat.leb_spec len (S (S j))); [|lia]. unfold lastn in E. rewrite skipn_map, all_some_map in E. discriminate.
  Qed.
  Lemma up_dev_or p v s : up_dev (Some p) (Some v) s = s \/ up_dev (Some p) (Some v) s = Some (fZ 0).
  Proof. cbn. destruct (_ <=? _); auto. Qed.
  Lemma down_dev_or p v s : down_dev (Some p) (Some v) s = s \/ down_dev (Some p) (Some v) s = Some (fZ 0).
  Proof. cbn. destruct (_ <? _); auto. Qed.
  Lemma ema_runs_length len alpha xs os : (1 <= len)%nat -> ema_runs len alpha xs = Ok os -> length os = length xs.
  Proof.
    intros L E. destruct (Nat.eq_dec len 1) as [->|N]; [cbn in E; injection E as <-; reflexivity|]. exact (proj1 (ema_runs_spec len alpha xs os ltac:(lia) E)).
  Qed.
  Lemma dev_ema_ok (f : option F -> option F -> option F -> option F) len ma (c : ctx F) (vs : list F) : (1 <= ma)%nat ->
    (forall p v s, f (Some p) (Some v) s = s \/ f (Some p) (Some v) s = Some (fZ 0)) -> (forall v s, f None v s = None) ->
    (ma = 1 \/ len <= ma + 2)%nat ->
    exists os, run_new (ema_new ma) ema_step c (zip3 f (None :: map Some vs) (map Some vs) (each_prefix (stdev_out true len) (map Some vs))) = Ok os /\ length os = length vs.
  Proof.
    intros M D D0 C. set (xs := zip3 _ _ _ _). unfold ema_new. rewrite ema_with_alpha_run by exact M.
    assert (LX : length xs = length vs) by (unfold xs; rewrite zip3_length, length_each_prefix; cbn [length]; rewrite map_length; lia).
    destruct (ema_runs ma _ xs) as [os|] eqn:E; [exists os; split; [reflexivity|]; rewrite (ema_runs_length _ _ _ _ M E); exact LX|exfalso].
    destruct (Nat.eq_dec ma 1) as [->|NM]; [discriminate E|].
    apply ema_runs_panic in E; [|lia]. destruct E as (i & j & w & Hij & W & N). assert (Hj : (j < length xs)%nat) by (apply nth_error_Some; congruence).
    destruct (dev_gaps f len vs j D N) as [->|J]; [lia|].
    destruct (window_no_gap ma xs i w 0 ltac:(lia) W) as [Q1 Q2].
    assert (N0 : nth_error xs 0 = Some None).
    { rewrite LX in Hj. destruct vs as [|v vs]; [cbn in Hj; lia|]. unfold xs. rewrite (nth_zip3 f _ _ _ 0 None (Some v) (stdev_out true len [Some v])); [rewrite D0; reflexivity|reflexivity|reflexivity|].
      rewrite nth_error_each_prefix; [reflexivity|cbn; lia]. }
    destruct (Nat.le_gt_cases (S i) ma) as [B|B]; [exact (Q2 ltac:(lia) ltac:(lia) N0)|]. lia.
  Qed.
  (** Over gap-free data it never panics if the averaging length is 1 or at
      least the deviation's length minus 2 (so with the default 10 and 14), *)
  Theorem C64_no_panic len ma (c : ctx F) src (vs : list F) : (1 <= len)%nat -> (1 <= ma)%nat -> (ma = 1 \/ len <= ma + 2)%nat -> feeds c src (map Some vs) ->
    exists os, run_new (rvoli_new src len ma) rvoli_step c (ticks (length vs)) = Ok os /\ length os = length vs.
  Proof.
    intros L M C H. rewrite C64_volatility by assumption. pose proof H as R; unfold feeds in R. rewrite map_length in R. rewrite R. cbn [rbind].
    rewrite (makes_run _ _ _ _ c _ (stdev_makes true len L) I). cbn [rbind].
    destruct (dev_ema_ok up_dev len ma c vs M up_dev_or ltac:(reflexivity) C) as (us & -> & LU). destruct (dev_ema_ok down_dev len ma c vs M down_dev_or ltac:(reflexivity) C) as (ls & -> & LL).
    cbn [rbind]. eexists; split; [reflexivity|]. unfold zip. rewrite map_length, combine_length. lia.
  Qed.
  (** but with any other lengths some gap-free data makes it panic: a flat
      stretch of [ma + 1] values followed by a rise. *)
  Lemma flat_then_rise_panics len ma (c : ctx F) src (a b : F) : (2 <= ma)%nat -> (ma + 3 <= len)%nat -> (a - a <=? fZ 0) = true -> (b - a <=? fZ 0) = false ->
    feeds c src (map Some (repeat a (S ma) ++ [b])) ->
    run_new (rvoli_new src len ma) rvoli_step c (ticks (ma + 2)) = Panic.
  Proof.
    intros M L EA EB H. set (vs := repeat a (S ma) ++ [b]) in *. assert (LV : length vs = (ma + 2)%nat) by (unfold vs; rewrite app_length, repeat_length; cbn; lia).
    rewrite C64_volatility by lia. pose proof H as R; unfold feeds in R. rewrite map_length, LV in R. rewrite R. cbn [rbind].
    rewrite (makes_run _ _ _ _ c _ (stdev_makes true len ltac:(lia)) I). cbn [rbind]. unfold ema_new at 1. rewrite ema_with_alpha_run by lia.
    set (xs := zip3 up_dev _ _ _). destruct (ema_runs ma _ xs) as [os|] eqn:E; [exfalso|reflexivity].
    assert (V : forall j, (j < S ma)%nat -> nth_error vs j = Some a).
    { intros j Hj. unfold vs. rewrite nth_error_app1 by (rewrite repeat_length; exact Hj). apply nth_error_repeat. exact Hj. }
    assert (VB : nth_error vs (S ma) = Some b) by (unfold vs; rewrite nth_error_app2 by (rewrite repeat_length; lia); rewrite repeat_length, Nat.sub_diag; reflexivity).
    assert (X : forall j, (1 <= j <= ma)%nat -> nth_error xs j = Some (Some (fZ 0))).
    { intros j Hj. unfold xs. rewrite (nth_zip3 up_dev _ _ _ j (Some a) (Some a) (stdev_out true len (firstn (S j) (map Some vs)))).
      - cbn. rewrite EA. reflexivity.
      - destruct j as [|j]; [lia|]. cbn [nth_error]. rewrite nth_error_map, V by lia. reflexivity.
      - rewrite nth_error_map, V by lia. reflexivity.
      - apply nth_error_each_prefix. rewrite map_length. lia. }
    assert (XB : nth_error xs (S ma) = Some None).
    { unfold xs. rewrite (nth_zip3 up_dev _ _ _ (S ma) (Some a) (Some b) (stdev_out true len (firstn (S (S ma)) (map Some vs)))).
      - cbn [up_dev]. rewrite EB. unfold stdev_out. destruct (Nat.eqb_spec len 1); [lia|]. unfold window. rewrite firstn_map, map_length, firstn_length_le by lia.
        destruct (Nat.leb_spec len (S (S ma))); [lia|]. reflexivity.
      - cbn [nth_error]. rewrite nth_error_map, V by lia. reflexivity.
      - rewrite nth_error_map, VB. reflexivity.
      - apply nth_error_each_prefix. rewrite map_length. lia. }
    assert (P : ema_runs ma (fZ 2 / (fnat ma + fZ 1)) xs = Panic); [|congruence].
    apply ema_runs_panic; [exact M|]. exists ma, (S ma), (repeat (fZ 0) ma). split; [lia|]. split; [|exact XB].
    assert (LX : length xs = (ma + 2)%nat) by (unfold xs; rewrite zip3_length, length_each_prefix; cbn [length]; rewrite map_length; lia).
    unfold window. rewrite firstn_length_le by lia. destruct (Nat.leb_spec ma (S ma)); [|lia].
    replace (lastn ma (firstn (S ma) xs)) with (map Some (repeat (fZ (F:=F) 0) ma)); [apply all_some_map|].
    rewrite map_repeat. symmetry. apply repeat_of_nth; [unfold lastn; rewrite skipn_length, firstn_length_le by lia; lia|].
    intros j Hj. unfold lastn. rewrite firstn_length_le by lia. rewrite nth_skipn, nth_firstn by lia. apply X. lia.
  Qed.
End C64p.
Section C64x.
  Local Open Scope R_scope.
  Definition okpos (o : option xr) : Prop := match o with None => True | Some (Fin r) => 0 <= r | Some _ => False end.
  Lemma okpos_lift l : Forall okpos l -> exists h, l = lift h /\ forall r, In (Some r) h -> 0 <= r.
  Proof.
    induction 1 as [|x l H F IH]; [exists []; split; [reflexivity|intros r []]|]. destruct IH as (h & -> & P).
    destruct x as [[r| | |]|]; try contradiction; [exists (Some r :: h)|exists (None :: h)]; (split; [reflexivity|]); intros s [E|I]; try discriminate; [injection E as <-; exact H|exact (P s I)|exact (P s I)].
  Qed.
  Lemma sma_okpos len l : (1 <= len)%nat -> l <> [] -> Forall okpos l -> okpos (sma_out len l).
  Proof.
    intros L N F. destruct (okpos_lift l F) as (h & -> & P). rewrite sma_exact by first [exact L|destruct h; [contradiction N; reflexivity|discriminate]].
    destruct (window len h) as [w|] eqn:W; [|exact I]. cbn [option_map okpos]. pose proof (window_length _ _ _ W) as LW.
    unfold window in W. destruct (len <=? length h)%nat; [|discriminate]. apply all_some_Some in W.
    unfold Rmean, Rdiv. apply Rmult_le_pos; [|left; apply Rinv_0_lt_compat, PExact.INR_pos; lia]. apply Rsum_nonneg. apply Forall_forall. intros r I. apply P. apply (lastn_In len). rewrite W. apply in_map. exact I.
  Qed.
  Lemma ema_okpos len a xs os : (1 <= len)%nat -> 0 <= a <= 1 -> Forall okpos xs -> ema_runs len (Fin a) xs = Ok os -> Forall okpos os.
  Proof.
    intros L A F E. destruct (Nat.eq_dec len 1) as [->|N]; [cbn in E; injection E as <-; exact F|].
    destruct (ema_runs_spec len _ xs os ltac:(lia) E) as [LO SP].
    assert (H : forall i o, nth_error os i = Some o -> okpos o).
    { induction i as [i IH] using lt_wf_ind. intros o Ho. assert (Hi : (i < length xs)%nat) by (rewrite <- LO; apply nth_error_Some; congruence).
      destruct (nth_error xs i) as [x|] eqn:Ex; [|apply nth_error_None in Ex; lia]. specialize (SP i x Ex).
      destruct (before None os i) as [p|] eqn:B.
      - destruct SP as (v & -> & EO). rewrite EO in Ho. apply some_inj in Ho. subst o.
        assert (Op : okpos (Some p)).
        { destruct i as [|j]; [discriminate|]. cbn [before] in B. destruct (nth_error os j) as [oj|] eqn:Ej; [|discriminate]. cbn [join] in B. subst oj. exact (IH j ltac:(lia) _ Ej). }
        rewrite Forall_forall in F. assert (Ov := F _ (nth_error_In _ _ Ex)). destruct p as [p| | |]; try contradiction. destruct v as [v| | |]; try contradiction.
        rewrite fin_Z, fin_sub, !fin_mul, fin_add. cbn [okpos] in *. assert (0 <= a * v) by (apply Rmult_le_pos; lra). assert (0 <= (1 - a) * p) by (apply Rmult_le_pos; lra). lra.
      - rewrite SP in Ho. apply some_inj in Ho. subst o. apply sma_okpos; [exact L|destruct xs; [cbn in Hi; lia|discriminate]|].
        rewrite Forall_forall in *. intros y Iy. apply F. exact (firstn_In _ _ _ Iy). }
    apply Forall_forall. intros o I. apply In_nth_error in I. destruct I as [i Hi]. exact (H i o Hi).
  Qed.
  Lemma stdev_okpos len h : (1 <= len)%nat -> h <> [] -> okpos (stdev_out true len (full h)).
  Proof.
    intros L N. destruct (Nat.eq_dec len 1) as [->|N1]; [cbn; lra|]. rewrite stdev_full by (lia || exact N). destruct (full_window len h); [|exact I]. cbn [option_map okpos]. apply sqrt_pos.
  Qed.
  Lemma devs_okpos (f : option xr -> option xr -> option xr -> option xr) len vs : (1 <= len)%nat ->
    (forall p v s, f (Some p) (Some v) s = s \/ f (Some p) (Some v) s = Some (fZ 0)) -> (forall v s, f None v s = None) ->
    Forall okpos (zip3 f (None :: full vs) (full vs) (each_prefix (stdev_out true len) (full vs))).
  Proof.
    intros L D D0. apply Forall_forall. intros o I. apply In_nth_error in I. destruct I as [i E]. apply zip3_inv in E. destruct E as (a & b & s & Ea & Eb & Es & ->).
    destruct i as [|i]; [injection Ea as <-; rewrite D0; exact Logic.I|]. cbn [nth_error] in Ea. unfold full in Ea, Eb. rewrite nth_error_map in Ea, Eb.
    destruct (nth_error vs i); [|discriminate]. destruct (nth_error vs (S i)) eqn:EV; [|discriminate]. injection Ea as <-. injection Eb as <-.
    apply nth_each in Es. destruct Es as [_ ->]. destruct (D (Fin r) (Fin r0) (stdev_out true len (firstn (S (S i)) (full vs)))) as [->| ->].
    - rewrite full_firstn. apply stdev_okpos; [exact L|]. exact (firstn_S_nonnil _ _ _ EV).
    - cbn. lra.
  Qed.
  Theorem C64_range len ma (c : ctx xr) src vs os i o : (1 <= len)%nat -> (1 <= ma)%nat -> feeds c src (full vs) ->
    run_new (rvoli_new src len ma) rvoli_step c (ticks (length vs)) = Ok os -> nth_error os i = Some (Some o) ->
    exists r, o = Fin r /\ 0 <= r <= 100.
  Proof.
    intros L M H E N. rewrite C64_volatility in E by assumption. pose proof H as R. unfold feeds in R. unfold full in R at 1. rewrite map_length in R. rewrite R in E. cbn [rbind] in E.
    rewrite (makes_run _ _ _ _ c _ (stdev_makes true len L) I) in E. cbn [rbind] in E. unfold ema_new in E. rewrite !ema_with_alpha_run in E by exact M.
    assert (A : fdiv (fZ 2) (fadd (fnat ma) (fZ 1)) = Fin (2 / (INR ma + 1)) /\ 0 <= 2 / (INR ma + 1) <= 1).
    { assert (1 <= INR ma) by (apply (le_INR 1); exact M). rewrite fin_nat, !fin_Z, fin_add, fin_div by lra. split; [reflexivity|]. apply ratio_pos; lra. }
    destruct A as [EA A]. rewrite EA in E.
    destruct (ema_runs ma _ (zip3 up_dev _ _ _)) as [us|] eqn:EU; [|discriminate]. cbn [rbind] in E. destruct (ema_runs ma _ (zip3 down_dev _ _ _)) as [ls|] eqn:EL; [|discriminate]. cbn [rbind] in E. injection E as <-.
    apply ema_okpos in EU; [|exact M|exact A|apply devs_okpos; [exact L|apply up_dev_or|reflexivity]].
    apply ema_okpos in EL; [|exact M|exact A|apply devs_okpos; [exact L|apply down_dev_or|reflexivity]].
    unfold zip in N. rewrite nth_error_map in N. destruct (nth_error (combine us ls) i) as [[u l]|] eqn:EC; [|discriminate]. cbn [option_map fst snd] in N. apply some_inj in N.
    apply nth_error_In in EC. rewrite Forall_forall in EU, EL. pose proof (EU _ (in_combine_l _ _ _ _ EC)) as U. pose proof (EL _ (in_combine_r _ _ _ _ EC)) as D.
    destruct u as [[u| | |]|]; try contradiction; [|discriminate]. destruct l as [[l| | |]|]; try contradiction; [|discriminate]. cbn [okpos] in U, D. unfold up_share in N.
    rewrite fin_neg, fin_eq in N. destruct (Reqb_spec u (- l)) as [|NE]; [discriminate|]. apply some_inj in N. subst o.
    rewrite fin_add, fin_div, fin_Z, fin_mul by lra. eexists; split; [reflexivity|]. destruct (ratio_pos u (u + l)); lra.
  Qed.
End C64x.
(** In f64 as well. *)
Theorem C64_panics len ma (c : ctx f64) src : (2 <= ma)%nat -> (ma + 3 <= len)%nat ->
  feeds c src (map Some (repeat (q 5) (S ma) ++ [q 6])) ->
  run_new (rvoli_new src len ma) rvoli_step c (ticks (ma + 2)) = Panic.
Proof. intros M L H. apply (flat_then_rise_panics len ma c src (q 5) (q 6)); [exact M|exact L|vm_compute; reflexivity|vm_compute; reflexivity|exact H]. Qed.
Definition is_panic {A} (r : res A) : bool := match r with Panic => true | Ok _ => false end.
Definition flat_then_rise : list (bar f64) := map qbar [(5, 5, 5, 5, 1); (5, 5, 5, 5, 1); (5, 5, 5, 5, 1); (5, 6, 5, 6, 1)]%Z.
Example C64_panics_ex :
  match ctx_over flat_then_rise with
  | Ok c => match run ostep c (src_box SClose) (ticks 4) with Ok xs => gives same_opt (Ok xs) [Some (q 5); Some (q 5); Some (q 5); Some (q 6)] | Panic => false end = true /\
            is_panic (run_new (rvoli_new (src_box SClose) 5 2) rvoli_step c (ticks 4)) = true /\
            is_panic (run_new (rvoli_new (src_box SClose) 4 2) rvoli_step c (ticks 4)) = false
  | Panic => False end.
Proof. vm_compute. repeat split. Qed.
Example C64_ex : feeds ctx6 (src_box SClose) (map b_close bars6) /\
  match run_new (rvoli_new (src_box SClose) 2 2) rvoli_step ctx6 (ticks 6) with
  | Ok os => map (option_map (fun v => fleb (q 0) v && fleb v (q 100))) os
  | Panic => [] end = [None; None; Some true; Some true; Some true; Some true].
Proof. split; [reflexivity|vm_compute; reflexivity]. Qed.

(** ** C65 *)
Section C65.
  Context {F : Type} {NF : Num F}.
  Local Open Scope num_scope.
  (** The preliminary stops, from highest high, lowest low and average true
      range; missing if any of them is. *)
  Definition first_high (x : F) (h l a : option F) : option F := match h, l, a with Some h, Some _, Some a => Some (h - x * a) | _, _, _ => None end.
  Definition first_low (x : F) (h l a : option F) : option F := match h, l, a with Some _, Some l, Some a => Some (l + x * a) | _, _, _ => None end.
  Theorem C65_stops p qq x (c : ctx F) bs : (1 <= p)%nat -> (1 <= qq)%nat -> fresh_over c bs -> Forall has_hl bs ->
    exists hs ls ats shorts longs os,
      run_new (highest_new p) highest_step c (map b_high bs) = Ok hs /\
      run_new (lowest_new p) lowest_step c (map b_low bs) = Ok ls /\
      run_new (atr_new p) atr_step c (ticks (length bs)) = Ok ats /\
      run_new (highest_new qq) highest_step c (zip3 (first_high x) hs ls ats) = Ok shorts /\
      run_new (lowest_new qq) lowest_step c (zip3 (first_low x) hs ls ats) = Ok longs /\
      run_new (cks_new p qq x) cks_step c (ticks (length bs)) = Ok os /\
      os = combine (combine (combine (zip3 (first_high x) hs ls ats) (zip3 (first_low x) hs ls ats)) longs) shorts.
  Proof.
    intros L1 L2 H A. rewrite (cks_run p qq x c bs L1 L2 H A).
    rewrite (makes_run _ _ _ _ c _ (highest_makes p L1) I), (makes_run _ _ _ _ c _ (lowest_makes p L1) I), (fresh_c_index _ _ H), !each_prefix_of_map.
    assert (RA : run_new (atr_new p) atr_step c (ticks (length bs)) = Ok (each_prefix (atr_out p) bs)) by (destruct (atr_run p c bs L1 H A) as (sa & Ea & Ra); unfold run_new; rewrite Ea; exact Ra).
    rewrite RA.
    do 6 eexists. do 3 (split; [reflexivity|]). rewrite !zip3_each.
    rewrite (makes_run _ _ _ _ c _ (highest_makes qq L2) I), (makes_run _ _ _ _ c _ (lowest_makes qq L2) I), (fresh_c_index _ _ H), !each_prefix_each_prefix.
    do 3 (split; [reflexivity|]). rewrite !combine_each. apply each_prefix_ext. intros h. unfold cks_out.
    assert (E1 : forall g, fst (cks_first_out p x g) = first_high x (highest_out p 0 (map b_high g)) (lowest_out p 0 (map b_low g)) (atr_out p g))
      by (intros g; unfold cks_first_out, cks_first, first_high; destruct (highest_out p 0 (map b_high g)), (lowest_out p 0 (map b_low g)), (atr_out p g); reflexivity).
    assert (E2 : forall g, snd (cks_first_out p x g) = first_low x (highest_out p 0 (map b_high g)) (lowest_out p 0 (map b_low g)) (atr_out p g))
      by (intros g; unfold cks_first_out, cks_first, first_low; destruct (highest_out p 0 (map b_high g)), (lowest_out p 0 (map b_low g)), (atr_out p g); reflexivity).
    rewrite E1, E2. do 2 f_equal; [f_equal|]; apply each_prefix_ext; intros g; auto.
  Qed.
End C65.
Section C65x.
  Local Open Scope R_scope.
  (** Smoothed true range, highest high and lowest low of the last [p] bars. *)
  Definition Rfirst (p : nat) (x : R) (h : list rbar5) : option (R * R) :=
    match full_window p h, Rsmooth (1 / INR p) p (Rtrs h) with
    | Some w, Some a => match Rmaximum (map rh w), Rminimum (map rl w) with Some u, Some l => Some (u - x * a, l + x * a) | _, _ => None end
    | _, _ => None
    end.
  Lemma cks_first_exact p x h : (1 <= p)%nat -> cks_first_out p (Fin x) (map bar_of h) =
    match Rfirst p x h with Some (a, b) => (Some (Fin a), Some (Fin b)) | None => (None, None) end.
  Proof.
    intros L. unfold cks_first_out, Rfirst. rewrite (col_full b_high rh), (col_full b_low rl), hi_full, lo_full, atr_bar, !full_window_map by (exact L || reflexivity).
    destruct (full_window p h) as [w|]; cbn [option_map]; [|destruct (Rsmooth _ _ _); reflexivity].
    destruct (Rmaximum (map rh w)) as [u|], (Rminimum (map rl w)) as [l|], (Rsmooth _ p (Rtrs h)) as [a|]; try reflexivity.
  Qed.
  Lemma lastn_map {A B} (f : A -> B) n l : lastn n (map f l) = map f (lastn n l).
  Proof. unfold lastn. rewrite map_length. apply skipn_map. Qed.
  Lemma hi_lift len h : highest_out len 0 (lift h) = if (len <=? length h)%nat then option_map Fin (Rmaximum (present (lastn len h))) else None.
  Proof. unfold highest_out. rewrite lift_length, lift_lastn, lift_present. cbn [Nat.add]. destruct (len <=? length h)%nat; [|reflexivity]. apply fin_best_max. Qed.
  Lemma lo_lift len h : lowest_out len 0 (lift h) = if (len <=? length h)%nat then option_map Fin (Rminimum (present (lastn len h))) else None.
  Proof. unfold lowest_out. rewrite lift_length, lift_lastn, lift_present. cbn [Nat.add]. destruct (len <=? length h)%nat; [|reflexivity]. apply fin_best_min. Qed.
  (** Output: (first high stop, first low stop, stop long, stop short). *)
  Theorem C65_exact p qq x (c : ctx xr) rs : (1 <= p)%nat -> (1 <= qq)%nat -> fresh_over c (map bar_of rs) ->
    exists os, run_new (cks_new p qq (Fin x)) cks_step c (ticks (length rs)) = Ok os /\ length os = length rs /\
    forall i fh fl sl ss, nth_error os i = Some (fh, fl, sl, ss) ->
      let h := firstn (S i) rs in
      let highs := present (map (option_map fst) (lastn qq (each_prefix (Rfirst p x) h))) in
      let lows := present (map (option_map snd) (lastn qq (each_prefix (Rfirst p x) h))) in
      fh = option_map (fun r => Fin (fst r)) (Rfirst p x h) /\
      fl = option_map (fun r => Fin (snd r)) (Rfirst p x h) /\
      ((length h < qq)%nat -> sl = None /\ ss = None) /\
      ((qq <= length h)%nat ->
         match sl with None => lows = [] | Some v => exists r, v = Fin r /\ is_min r lows end /\
         match ss with None => highs = [] | Some v => exists r, v = Fin r /\ is_max r highs end).
  Proof.
    intros L1 L2 H. pose proof (cks_run p qq (Fin x) c _ L1 L2 H (full_has_hl rs)) as R. rewrite map_length in R. rewrite R.
    eexists; split; [reflexivity|]. split; [rewrite length_each_prefix, map_length; reflexivity|].
    intros i fh fl sl ss Ho h. apply nth_each in Ho. destruct Ho as [Hi Ho]. rewrite firstn_map in Ho. fold h in Ho. unfold cks_out in Ho.
    assert (S1 : each_prefix (fun g => fst (cks_first_out p (Fin x) g)) (map bar_of h) = lift (map (option_map fst) (each_prefix (Rfirst p x) h))).
    { rewrite each_prefix_of_map. unfold lift. rewrite map_map, each_prefix_map. apply each_prefix_ext. intros g. rewrite cks_first_exact by exact L1. destruct (Rfirst p x g) as [[a b]|]; reflexivity. }
    assert (S2 : each_prefix (fun g => snd (cks_first_out p (Fin x) g)) (map bar_of h) = lift (map (option_map snd) (each_prefix (Rfirst p x) h))).
    { rewrite each_prefix_of_map. unfold lift. rewrite map_map, each_prefix_map. apply each_prefix_ext. intros g. rewrite cks_first_exact by exact L1. destruct (Rfirst p x g) as [[a b]|]; reflexivity. }
    rewrite S1, S2, hi_lift, lo_lift, cks_first_exact in Ho by exact L1. rewrite !map_length, !length_each_prefix in Ho. rewrite !lastn_map in Ho.
    cbv zeta. set (hs := present (map (option_map fst) _)) in *. set (ls := present (map (option_map snd) _)) in *.
    injection Ho as E1 E2 E3 E4. split; [rewrite E1; destruct (Rfirst p x h) as [[a b]|]; reflexivity|]. split; [rewrite E2; destruct (Rfirst p x h) as [[a b]|]; reflexivity|].
    split; intros B; destruct (Nat.leb_spec qq (length h)) as [Q|Q]; try lia; [auto|]. split.
    - rewrite E3. destruct (Rminimum ls) as [m|] eqn:M; cbn [option_map]; [exists m; split; [reflexivity|apply Rminimum_spec; exact M]|]. destruct ls; [reflexivity|discriminate M].
    - rewrite E4. destruct (Rmaximum hs) as [m|] eqn:M; cbn [option_map]; [exists m; split; [reflexivity|apply Rmaximum_spec; exact M]|]. destruct hs; [reflexivity|discriminate M].
  Qed.
End C65x.
Example C65_ex : Forall has_hl bars6 /\ gives (fun a b => same_opt (fst (fst (fst a))) (fst (fst (fst b))) && same_opt (snd (fst (fst a))) (snd (fst (fst b))) && same_opt (snd (fst a)) (snd (fst b)) && same_opt (snd a) (snd b))
    (run_new (cks_new 1 2 (q 1)) cks_step ctx6 (ticks 4))
    [(Some (q 9), Some (q 12), None, None); (Some (q 10), Some (q 14), Some (q 12), Some (q 10)); (Some (q 12), Some (q 15), Some (q 14), Some (q 12)); (Some (q 8), Some (q 13), Some (q 13), Some (q 12))] = true.
Proof. split; [unfold bars6; repeat (constructor; [split; discriminate|]); constructor|vm_compute; reflexivity]. Qed.

(** ** C66 *)
Section C66.
  Context {F : Type} {NF : Num F}.
  Local Open Scope num_scope.
  Theorem C66_choppiness len (c : ctx F) bs : (1 <= len)%nat -> fresh_over c bs -> Forall has_hl bs ->
    exists trs sums hs ls os,
      run_new (atr_new 1) atr_step c (ticks (length bs)) = Ok trs /\
      run_new (sum_new len) sum_step c trs = Ok sums /\
      run_new (highest_new len) highest_step c (map b_high bs) = Ok hs /\
      run_new (lowest_new len) lowest_step c (map b_low bs) = Ok ls /\
      run_new (chop_new len) chop_step c (ticks (length bs)) = Ok os /\
      os = zip3 (fun s h l => match s, h, l with
                              | Some s, Some h, Some l => if h - l ==? fZ 0 then None else Some (fZ 100 * flog10 (s / (h - l)) / flog10 (fnat len))
                              | _, _, _ => None end) sums hs ls.
  Proof.
    intros L H A. rewrite (chop_run len c bs L H A).
    assert (RA : run_new (atr_new 1) atr_step c (ticks (length bs)) = Ok (each_prefix (atr_out 1) bs)) by (destruct (atr_run 1 c bs (le_n 1) H A) as (sa & Ea & Ra); unfold run_new; rewrite Ea; exact Ra).
    rewrite RA. rewrite (makes_run _ _ _ _ c _ (highest_makes len L) I), (makes_run _ _ _ _ c _ (lowest_makes len L) I), (fresh_c_index _ _ H), !each_prefix_of_map.
    do 5 eexists. split; [reflexivity|]. rewrite (makes_run _ _ _ _ c _ (sum_makes len L) I), each_prefix_each_prefix. do 4 (split; [reflexivity|]).
    rewrite zip3_each. apply each_prefix_ext. intros h. reflexivity.
  Qed.
End C66.
Section C66x.
  Local Open Scope R_scope.
  Definition Rlog10 (x : R) : R := ln x / ln 10.
  Lemma lastn_all {A} n (l : list A) : (length l <= n)%nat -> lastn n l = l.
  Proof. intros H. unfold lastn. replace (length l - n)%nat with 0%nat by lia. reflexivity. Qed.
  Lemma Rsum_app l m : Rsum (l ++ m) = Rsum l + Rsum m.
  Proof. induction l as [|x l IH]; cbn; [lra|]. rewrite IH. lra. Qed.
  (** The bars of a window, with the closes in between, cover everything from
      the lowest low to the highest high. *)
  Lemma ranges_cover t w u d : Forall consistent w -> w <> [] -> is_max u (map rh w) -> is_min d (map rl w) ->
    u - d <= Rsum (lastn (length w) (Rtrs (t ++ w))).
  Proof.
    revert u d. induction w as [|r w IH] using rev_ind; intros u d C N U D; [congruence|]. apply Forall_snoc in C. destruct C as [C Cr].
    destruct w as [|p w _] using rev_ind.
    - cbn [app map] in U, D. destruct U as [[<-|[]] _]. destruct D as [[<-|[]] _]. cbn [app length].
      destruct t as [|a t _] using rev_ind; [cbn; lra|]. rewrite <- app_assoc. cbn [app]. rewrite Rtrs_snoc, lastn_S_snoc, Rsum_app. unfold lastn. rewrite Nat.sub_0_r, skipn_all. cbn [Rsum].
      destruct Cr as [_ Cr]. pose proof (Rtr_range a r ltac:(lra)). lra.
    - apply Forall_snoc in C. destruct C as [C Cp]. replace (t ++ (w ++ [p]) ++ [r]) with ((t ++ w) ++ [p; r]) by (rewrite <- !app_assoc; reflexivity).
      rewrite Rtrs_snoc, app_length. cbn [length]. rewrite Nat.add_1_r, lastn_S_snoc, Rsum_app. cbn [Rsum]. rewrite <- app_assoc.
      set (w' := w ++ [p]) in *. assert (N' : w' <> []) by (subst w'; destruct w; discriminate).
      destruct (Rmaximum (map rh w')) as [u'|] eqn:EU; [|destruct w'; [congruence|discriminate EU]]. destruct (Rminimum (map rl w')) as [d'|] eqn:ED; [|destruct w'; [congruence|discriminate ED]].
      apply Rmaximum_spec in EU. apply Rminimum_spec in ED.
      specialize (IH u' d' (proj2 (Forall_app _ _ _) (conj C (Forall_cons _ Cp (Forall_nil _)))) N' EU ED). 
      assert (P1 : d' <= rl p) by (destruct ED as [_ ED]; rewrite Forall_forall in ED; apply ED, in_map; subst w'; apply in_or_app; right; left; reflexivity).
      assert (P2 : rh p <= u') by (destruct EU as [_ EU]; rewrite Forall_forall in EU; apply EU, in_map; subst w'; apply in_or_app; right; left; reflexivity).
      assert (U' : u <= u' \/ u = rh r). { destruct U as [U _]. rewrite map_app in U. apply in_app_or in U. destruct U as [U|[<-|[]]]; [left|right; reflexivity]. destruct EU as [_ EU]. rewrite Forall_forall in EU. exact (EU _ U). }
      assert (D' : d' <= d \/ d = rl r). { destruct D as [D _]. rewrite map_app in D. apply in_app_or in D. destruct D as [D|[<-|[]]]; [left|right; reflexivity]. destruct ED as [_ ED]. rewrite Forall_forall in ED. exact (ED _ D). }
      destruct Cp as [_ Cp], Cr as [_ Cr]. unfold Rtr. 
      pose proof (Rmax_l (Rmax (rh r - rl r) (Rabs (rh r - rc p))) (Rabs (rl r - rc p))) as M1. pose proof (Rmax_r (Rmax (rh r - rl r) (Rabs (rh r - rc p))) (Rabs (rl r - rc p))) as M2.
      pose proof (Rmax_l (rh r - rl r) (Rabs (rh r - rc p))) as M3. pose proof (Rmax_r (rh r - rl r) (Rabs (rh r - rc p))) as M4.
      pose proof (Rle_abs (rh r - rc p)) as A1. pose proof (Rle_abs (- (rl r - rc p))) as A2. rewrite Rabs_Ropp in A2.
      assert (LE : u' - d' <= Rsum (lastn (length w') (Rtrs (t ++ w')))) by exact IH.
      destruct U' as [U'| ->], D' as [D'| ->]; lra.
  Qed.
  Theorem C66_exact len (c : ctx xr) rs : (2 <= len)%nat -> fresh_over c (map bar_of rs) ->
    exists os, run_new (chop_new len) chop_step c (ticks (length rs)) = Ok os /\ length os = length rs /\
    forall i o, nth_error os i = Some o ->
      match full_window len (firstn (S i) rs) with
      | None => o = None
      | Some w => exists u d s, is_max u (map rh w) /\ is_min d (map rl w) /\ s = Rsum (lastn len (Rtrs (firstn (S i) rs))) /\
          (u = d -> o = None) /\
          (Forall consistent w -> u <> d ->
             1 <= s / (u - d) /\ o = Some (Fin (100 * Rlog10 (s / (u - d)) / Rlog10 (INR len))) /\ 0 <= 100 * Rlog10 (s / (u - d)) / Rlog10 (INR len))
      end.
  Proof.
    intros L H. pose proof (chop_run len c _ ltac:(lia) H (full_has_hl rs)) as R. rewrite map_length in R. rewrite R.
    eexists; split; [reflexivity|]. split; [rewrite length_each_prefix, map_length; reflexivity|].
    intros i o Ho. apply nth_each in Ho. destruct Ho as [_ ->]. unfold chop_out. rewrite firstn_map. set (h := firstn (S i) rs).
    rewrite atr1_series, (col_full b_high rh), (col_full b_low rl), hi_full, lo_full, !full_window_map by reflexivity. rewrite full_warm, sum_warm by lia.
    destruct (full_window len h) as [w|] eqn:W; cbn [option_map]; [|destruct (full_window len (Rtrs h)); reflexivity].
    apply full_window_Some in W. destruct W as (EW & LW & LH).
    assert (ET : full_window len (Rtrs h) = Some (lastn len (Rtrs h))) by (unfold full_window; rewrite Rtrs_length; destruct (Nat.leb_spec len (length h)); [reflexivity|lia]).
    rewrite ET. cbn [option_map].
    destruct (Rmaximum (map rh w)) as [u|] eqn:EU; [|destruct w; [cbn in LW; lia|discriminate EU]]. destruct (Rminimum (map rl w)) as [d|] eqn:ED; [|destruct w; [cbn in LW; lia|discriminate ED]].
    apply Rmaximum_spec in EU. apply Rminimum_spec in ED. exists u, d, (Rsum (lastn len (Rtrs h))). split; [exact EU|]. split; [exact ED|]. split; [reflexivity|].
    cbn [option_map]. unfold chop_value. cbv zeta. rewrite fin_sub, fin_Z, fin_eq. destruct (Reqb_spec (u - d) 0) as [E|E]; [split; [reflexivity|]; intros _ NE; lra|]. split; [intros ->; lra|].
    intros C NE. set (s := Rsum (lastn len (Rtrs h))).
    assert (S1 : 0 < u - d).
    { assert (d <= u); [|lra]. destruct w as [|r0 w0]; [cbn in LW; lia|]. inversion C as [|? ? C0 _]; subst. destruct C0 as [C0 _].
      destruct EU as [_ EU]. destruct ED as [_ ED]. inversion EU; subst. inversion ED; subst. lra. }
    assert (S2 : u - d <= s).
    { unfold s. assert (EH : h = firstn (length h - len) h ++ w) by (rewrite EW; unfold lastn; symmetry; apply firstn_skipn). rewrite EH at 1. rewrite <- LW at 1.
      apply ranges_cover; [exact C|destruct w; [cbn in LW; lia|discriminate]|exact EU|exact ED]. }
    assert (S3 : 1 <= s / (u - d)) by (apply (Rmult_le_reg_r (u - d)); [exact S1|]; unfold Rdiv; rewrite Rmult_assoc, Rinv_l; lra).
    split; [exact S3|]. rewrite fin_div by exact E.
    assert (L2 : 2 <= INR len) by (apply (le_INR 2); exact L).
    assert (T : 0 < ln 10) by (rewrite <- ln_1; apply ln_increasing; lra).
    assert (LL : 0 < ln (INR len)) by (rewrite <- ln_1; apply ln_increasing; lra).
    assert (G1 : forall z, 0 < z -> flog10 (Fin z) = Fin (Rlog10 z)) by (intros z Hz; cbn; destruct (Rlt_dec z 0); [lra|]; destruct (Req_EM_T z 0); [lra|reflexivity]).
    assert (G2 : 0 < Rlog10 (INR len)) by (unfold Rlog10; apply Rdiv_lt_0_compat; assumption).
    rewrite fin_nat, !G1, fin_Z, fin_mul, fin_div by lra. split; [reflexivity|].
    assert (G3 : 0 <= Rlog10 (s / (u - d))).
    { unfold Rlog10. apply Rmult_le_pos; [|left; apply Rinv_0_lt_compat; exact T]. rewrite <- ln_1. destruct S3 as [S3|S3]; [left; apply ln_increasing; lra|rewrite <- S3; right; reflexivity]. }
    unfold Rdiv at 1. apply Rmult_le_pos; [lra|]. left. apply Rinv_0_lt_compat. exact G2.
  Qed.
End C66x.
Example C66_hyp_ex : consistent (mkRB 10 12 9 11 100) /\ consistent (mkRB 11 14 10 13 120).
Proof. unfold consistent; cbn; lra. Qed.

(** ** C67 *)
Section C67.
  Context {F : Type} {NF : Num F}.
  Local Open Scope num_scope.
  Definition vm_plus (p b : bar F) : option F := option_map fabs (minus (b_high b) (b_low p)).
  Definition vm_minus (p b : bar F) : option F := option_map fabs (minus (b_low b) (b_high p)).
  Theorem C67_vortex len (c : ctx F) bs : (1 <= len)%nat -> fresh_over c bs -> Forall has_hl bs ->
    exists trs ts ps ms os,
      run_new (atr_new 1) atr_step c (ticks (length bs)) = Ok trs /\
      run_new (sum_new len) sum_step c trs = Ok ts /\
      run_new (sum_new len) sum_step c (with_prev_bar vm_plus bs) = Ok ps /\
      run_new (sum_new len) sum_step c (with_prev_bar vm_minus bs) = Ok ms /\
      run_new (vortex_new len) vortex_step c (ticks (length bs)) = Ok os /\
      os = combine (zip quot ps ts) (zip quot ms ts).
  Proof.
    intros L H A. rewrite (vortex_run len c bs L H A).
    assert (RA : run_new (atr_new 1) atr_step c (ticks (length bs)) = Ok (each_prefix (atr_out 1) bs)) by (destruct (atr_run 1 c bs (le_n 1) H A) as (sa & Ea & Ra); unfold run_new; rewrite Ea; exact Ra).
    rewrite RA. rewrite (with_prev_bar_each vm_plus vx_plus), (with_prev_bar_each vm_minus vx_minus).
    - do 5 eexists. split; [reflexivity|]. rewrite !(makes_run _ _ _ _ c _ (sum_makes len L) I), !each_prefix_each_prefix. do 4 (split; [reflexivity|]).
      rewrite !zip_each, combine_each. reflexivity.
    - intros a. unfold vx_minus. cbn. destruct (b_low a); reflexivity.
    - intros t a b. unfold vx_minus. rewrite snoc2, prv_snoc, !cur_snoc. unfold vm_minus, minus. destruct (b_low b), (b_high a); reflexivity.
    - intros a. unfold vx_plus. cbn. destruct (b_high a); reflexivity.
    - intros t a b. unfold vx_plus. rewrite snoc2, prv_snoc, !cur_snoc. unfold vm_plus, minus. destruct (b_high b), (b_low a); reflexivity.
  Qed.
End C67.
Section C67x.
  Local Open Scope R_scope.
  Definition Rvp (p r : rbar5) : R := Rabs (rh r - rl p).
  Definition Rvm (p r : rbar5) : R := Rabs (rl r - rh p).
  (** [f] summed over the last [len] pairs of bars, over the true ranges. *)
  Definition vortex_ratio (f : rbar5 -> rbar5 -> R) (w : list (rbar5 * rbar5)) : option R :=
    let t := Rsum (map (fun p => Rtr (fst p) (snd p)) w) in
    if Req_EM_T t 0 then None else Some (Rsum (map (fun p => f (fst p) (snd p)) w) / t).
  Lemma vp_series h : h <> [] -> each_prefix vx_plus (map bar_of h) = warm 1 (map Fin (on_pairs Rvp h)).
  Proof. intros N. apply dm_series; [exact N|reflexivity|]. intros t a b. unfold vx_plus. rewrite bar2, prv_snoc, !cur_snoc. reflexivity. Qed.
  Lemma vm_series h : h <> [] -> each_prefix vx_minus (map bar_of h) = warm 1 (map Fin (on_pairs Rvm h)).
  Proof. intros N. apply dm_series; [exact N|reflexivity|]. intros t a b. unfold vx_minus. rewrite bar2, prv_snoc, !cur_snoc. reflexivity. Qed.
  Lemma Rtrs_pairs h w len : full_window len (pairs h) = Some w -> full_window len (Rtrs h) = Some (map (fun p => Rtr (fst p) (snd p)) w).
  Proof.
    intros W. apply full_window_Some in W. destruct W as (-> & _ & L). rewrite pairs_length in L. unfold full_window. rewrite Rtrs_length.
    destruct (Nat.leb_spec len (length h)) as [Q|Q]; [|lia]. f_equal. destruct h as [|r h]; [reflexivity|]. unfold Rtrs.
    change ((rh r - rl r) :: map (fun p => Rtr (fst p) (snd p)) (pairs (r :: h))) with ([rh r - rl r] ++ map (fun p => Rtr (fst p) (snd p)) (pairs (r :: h))).
    rewrite lastn_app_r by (rewrite map_length, pairs_length; exact L). apply lastn_map.
  Qed.
  Lemma vortex_half f k len h w : (1 <= len)%nat -> each_prefix k (map bar_of h) = warm 1 (map Fin (on_pairs f h)) -> full_window len (pairs h) = Some w ->
    ps_div (sum_out len (each_prefix k (map bar_of h))) (sum_out len (each_prefix (atr_out 1) (map bar_of h))) = option_map Fin (vortex_ratio f w).
  Proof.
    intros L E W. rewrite E, atr1_series, full_warm, !sum_warm by exact L. rewrite (Rtrs_pairs _ _ _ W). unfold on_pairs. rewrite full_window_map, W. cbn [option_map ps_div].
    rewrite fin_Z, fin_eq. unfold vortex_ratio. cbv zeta. destruct (Reqb_spec (Rsum (map (fun p => Rtr (fst p) (snd p)) w)) 0) as [Q|Q]; destruct (Req_EM_T _ 0); try contradiction; [reflexivity|].
    rewrite fin_div by exact Q. reflexivity.
  Qed.
  Lemma vortex_ratio_pos f w v : (forall p r, 0 <= f p r) -> vortex_ratio f w = Some v -> 0 <= v.
  Proof.
    intros P. unfold vortex_ratio. cbv zeta. destruct (Req_EM_T _ 0) as [|N]; [discriminate|]. intros E. apply some_inj in E. subst v.
    assert (0 <= Rsum (map (fun p => f (fst p) (snd p)) w)) by (apply Rsum_nonneg, Forall_forall; intros z I; apply in_map_iff in I; destruct I as (y & <- & _); apply P).
    assert (0 <= Rsum (map (fun p => Rtr (fst p) (snd p)) w)) by (apply Rsum_nonneg, Forall_forall; intros z I; apply in_map_iff in I; destruct I as (y & <- & _); apply Rtr_nonneg).
    apply Rmult_le_pos; [assumption|]. left. apply Rinv_0_lt_compat. lra.
  Qed.
  Theorem C67_exact len (c : ctx xr) rs : (1 <= len)%nat -> fresh_over c (map bar_of rs) ->
    exists os, run_new (vortex_new len) vortex_step c (ticks (length rs)) = Ok os /\ length os = length rs /\
    forall i o, nth_error os i = Some o ->
      match full_window len (pairs (firstn (S i) rs)) with
      | None => o = (None, None)
      | Some w => o = (option_map Fin (vortex_ratio Rvp w), option_map Fin (vortex_ratio Rvm w)) /\
          (forall v, vortex_ratio Rvp w = Some v -> 0 <= v) /\ (forall v, vortex_ratio Rvm w = Some v -> 0 <= v)
      end.
  Proof.
    intros L H. pose proof (vortex_run len c _ L H (full_has_hl rs)) as R. rewrite map_length in R. rewrite R.
    eexists; split; [reflexivity|]. split; [rewrite length_each_prefix, map_length; reflexivity|].
    intros i o Ho. apply nth_each in Ho. destruct Ho as [Hi ->]. rewrite map_length in Hi. unfold vortex_out. rewrite firstn_map. set (h := firstn (S i) rs).
    assert (N : h <> []) by (subst h; destruct rs; [cbn in Hi; lia|discriminate]).
    destruct (full_window len (pairs h)) as [w|] eqn:W.
    - rewrite (vortex_half Rvp vx_plus len h w L (vp_series h N) W), (vortex_half Rvm vx_minus len h w L (vm_series h N) W). split; [reflexivity|].
      split; intros v; apply vortex_ratio_pos; intros p r; apply Rabs_pos.
    - rewrite (vp_series h N), (vm_series h N), !sum_warm by exact L. unfold on_pairs. rewrite !full_window_map, W. reflexivity.
  Qed.
End C67x.
Example C67_ex : gives (fun a b => same_opt (fst a) (fst b) && same_opt (snd a) (snd b)) (run_new (vortex_new 2) vortex_step ctx6 (ticks 4))
  [(None, None); (None, None); (Some (fdiv (q 10) (q 7)), Some (fdiv (q 4) (q 7))); (Some (fdiv (q 6) (q 8)), Some (fdiv (q 9) (q 8)))] = true.
Proof. vm_compute. reflexivity. Qed.

(** ** C68 *)
Section C68.
  Context {F : Type} {NF : Num F}.
  Local Open Scope num_scope.
  Definition plus (a b : option F) : option F := match a, b with Some a, Some b => Some (a + b) | _, _ => None end.
  Theorem C68_coppock long short len (c : ctx F) src xs : (1 <= long)%nat -> (1 <= short)%nat -> (1 <= len)%nat -> feeds c src xs ->
    exists ls ss os,
      run_new (roc_new long) roc_step c xs = Ok ls /\ run_new (roc_new short) roc_step c xs = Ok ss /\
      run_new (wma_new len) wma_step c (zip plus ls ss) = Ok os /\
      run_new (cop_new src long short len) cop_step c (ticks (length xs)) = Ok os.
  Proof.
    intros L1 L2 L3 H. rewrite (cop_run long short len c src xs L1 L2 L3 H).
    rewrite (makes_run _ _ _ _ c _ (roc_makes long L1) I), (makes_run _ _ _ _ c _ (roc_makes short L2) I).
    do 3 eexists. do 2 (split; [reflexivity|]). rewrite zip_each, (makes_run _ _ _ _ c _ (wma_makes len L3) I), each_prefix_each_prefix. split; reflexivity.
  Qed.
End C68.
Section C68x.
  Local Open Scope R_scope.
  (** Percentage change over [k] bars. *)
  Definition Rroc (k : nat) (vs : list R) : option R :=
    match ago k vs, newest vs with Some old, Some v => if Req_EM_T old 0 then None else Some (100 * (v - old) / old) | _, _ => None end.
  Definition Rroc2 (long short : nat) (vs : list R) : option R :=
    match Rroc long vs, Rroc short vs with Some a, Some b => Some (a + b) | _, _ => None end.
  Lemma roc_full k h : roc_out k (full h) = option_map Fin (Rroc k h).
  Proof.
    unfold roc_out, Rroc. unfold full. rewrite newest_map, ago_map. destruct (newest h) as [v|], (ago k h) as [o|]; cbn [option_map join]; try reflexivity.
    rewrite !fin_Z, fin_eq. destruct (Reqb_spec o 0) as [E|E], (Req_EM_T o 0); try contradiction; [reflexivity|]. rewrite fin_sub, fin_mul, fin_div by exact E. reflexivity.
  Qed.
  Theorem C68_exact long short len (c : ctx xr) src vs : (1 <= long)%nat -> (1 <= short)%nat -> (1 <= len)%nat -> c_index c = 0%nat -> feeds c src (full vs) ->
    exists os, run_new (cop_new src long short len) cop_step c (ticks (length vs)) = Ok os /\ length os = length vs /\
    forall i o, nth_error os i = Some o ->
      o = option_map (fun w => Fin (Rwmean w)) (window len (each_prefix (Rroc2 long short) (firstn (S i) vs))).
  Proof.
    intros L1 L2 L3 Z H. pose proof (cop_run long short len c src _ L1 L2 L3 H) as R. unfold full in R at 1. rewrite map_length in R. rewrite R.
    eexists; split; [reflexivity|]. split; [rewrite length_each_prefix; unfold full; apply map_length|].
    intros i o Ho. apply nth_each in Ho. destruct Ho as [_ ->]. rewrite full_firstn, Z. set (h := firstn (S i) vs). unfold cop_out.
    assert (E : each_prefix (cop_roc long short) (full h) = lift (each_prefix (Rroc2 long short) h)).
    { unfold full. rewrite each_prefix_of_map. unfold lift. rewrite each_prefix_map. apply each_prefix_ext. intros p. unfold cop_roc, Rroc2. fold (full p). rewrite !roc_full.
      destruct (Rroc long p), (Rroc short p); reflexivity. }
    rewrite E, wma_exact by exact L3. destruct (window len _); reflexivity.
  Qed.
End C68x.
Example C68_ex : gives same_opt (run_new (cop_new (src_box SClose) 2 1 1) cop_step ctx6 (ticks 3))
  [None; None; Some (fadd (fdiv (q 100) (q 11)) (fdiv (q (-100)) (q 13)))] = true.
Proof. vm_compute. reflexivity. Qed.
