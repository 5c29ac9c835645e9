(** * PropStats: properties C41-C44, C72, C73 (statistics, snapshots, calendar). *)
From Flocq Require Import Core IEEE754.BinarySingleNaN.
From Verif Require Export PRun PExact PTa4 Inst.

Lemma fsum_snoc {F} {NF : Num F} (l : list F) x : fsum (l ++ [x]) = fadd (fsum l) x.
Proof. unfold fsum. rewrite fold_left_app. reflexivity. Qed.

(** ** C41 *)
Section C41.
  Context {F : Type} {NF : Num F}.

  Theorem C41_mean (c : ctx F) xs : run mean_step c mean_new xs = Ok (each_prefix mean xs).
  Proof.
    apply run_spec with (inv := fun h s => s = mkMean (fsum h) (length h)); [reflexivity|].
    intros h s x ->. unfold mean_step, mean_next; cbn [mn_sum mn_n].
    eexists; split; [|unfold mean; rewrite fsum_snoc, app_length; reflexivity].
    unfold mean. rewrite fsum_snoc, app_length. cbn [length]. reflexivity.
  Qed.
  Lemma var_slow_state (h : list F) x :
    var_next (mkVar false h wvar_new (mkMean (fsum h) (length h))) x =
    (mkVar false (h ++ [x]) wvar_new (mkMean (fsum (h ++ [x])) (length (h ++ [x]))), var (h ++ [x])).
  Proof.
    unfold var_next; cbn [va_fast va_cache va_mean va_welford]. unfold mean_next; cbn [mn_sum mn_n].
    rewrite fsum_snoc, app_length. cbn [length]. f_equal. unfold ic_all, ic_push, var, mean.
    rewrite fsum_snoc, app_length. reflexivity.
  Qed.
  Theorem C41_var_slow (c : ctx F) xs : run var_step c (var_build false) xs = Ok (each_prefix var xs).
  Proof.
    apply run_spec with (inv := fun h s => s = mkVar false h wvar_new (mkMean (fsum h) (length h))); [reflexivity|].
    intros h s x ->. unfold var_step. rewrite var_slow_state. eexists; split; reflexivity.
  Qed.
  Theorem C41_stdev_slow (c : ctx F) xs : run sstdev_step c (sstdev_build false) xs = Ok (each_prefix stdev xs).
  Proof.
    apply run_spec with (inv := fun h s => s = mkVar false h wvar_new (mkMean (fsum h) (length h))); [reflexivity|].
    intros h s x ->. unfold sstdev_step, sstdev_next. rewrite var_slow_state. eexists; split; reflexivity.
  Qed.
End C41.

Section C41_exact.
  Open Scope R_scope.
  Lemma fin_mean (l : list R) : l <> [] -> mean (map Fin l) = Fin (Rmean l).
  Proof.
    intros N. unfold mean. rewrite fin_sum, map_length, fin_nat, fin_div; [reflexivity|].
    apply not_0_INR. destruct l; [congruence|cbn; lia].
  Qed.
  Lemma INR_len_pos {A} (l : list A) : l <> [] -> 0 < INR (length l).
  Proof. intros N. apply lt_0_INR. destruct l; [congruence|cbn; lia]. Qed.
  (** The batch functions are the textbook ones. *)
  Theorem C41_batch (l : list R) : l <> [] ->
    mean (map Fin l) = Fin (Rmean l) /\ var (map Fin l) = Fin (Rssd l / INR (length l)) /\
    stdev (map Fin l) = Fin (sqrt (Rssd l / INR (length l))) /\ 0 <= Rssd l / INR (length l).
  Proof.
    intros N. pose proof (INR_len_pos l N) as P. split; [apply fin_mean; exact N|].
    assert (V : var (map Fin l) = Fin (Rssd l / INR (length l))).
    { unfold var, var_from_mean. rewrite fin_mean by exact N. rewrite map_map.
      assert (E : map (fun x => fsq (fsub (Fin x) (Fin (Rmean l)))) l = map Fin (map (fun v => (v - Rmean l) ^ 2) l)).
      { rewrite map_map. apply map_ext. intros v. rewrite fin_sub, fin_sq. f_equal. ring. }
      rewrite E, fin_sum, map_length, fin_nat, fin_div by lra. reflexivity. }
    assert (NN : 0 <= Rssd l / INR (length l)).
    { apply Rmult_le_pos; [|left; apply Rinv_0_lt_compat; exact P].
      apply Rsum_nonneg, Forall_forall. intros x Hx. apply in_map_iff in Hx. destruct Hx as (v & <- & _). apply pow2_ge_0. }
    repeat split; auto. unfold stdev, stdev_from_var. rewrite V, fin_sqrt by exact NN. reflexivity.
  Qed.

  (** The sum of squared deviations when a value is appended. *)
  Lemma Rssd_expand l : l <> [] -> Rssd l = Rsum (map (fun v => v ^ 2) l) - INR (length l) * Rmean l ^ 2.
  Proof.
    intros N. pose proof (INR_len_pos l N) as P. unfold Rssd.
    assert (G : forall m k, Rsum (map (fun v => (v - m) ^ 2) k) = Rsum (map (fun v => v ^ 2) k) - 2 * m * Rsum k + INR (length k) * m ^ 2).
    { intros m k. induction k as [|x k IH]; [cbn; lra|]. cbn [map Rsum length]. rewrite IH, S_INR. ring. }
    rewrite G. unfold Rmean. field. lra.
  Qed.
  Lemma welford_mean l x : Rmean (l ++ [x]) = (if l then 0 else Rmean l) + (x - (if l then 0 else Rmean l)) / INR (length l + 1).
  Proof.
    destruct l as [|y l0] eqn:E; [unfold Rmean; cbn; lra|]. rewrite <- E in *.
    assert (N : l <> []) by (rewrite E; discriminate). clear E. pose proof (INR_len_pos l N) as P.
    unfold Rmean. rewrite Rsum_app, app_length. cbn [length Rsum].
    rewrite plus_INR. cbn [INR]. field. lra.
  Qed.
  Lemma welford_ssd l x : Rssd (l ++ [x]) =
    (if l then 0 else Rssd l) + (x - (if l then 0 else Rmean l)) * (x - Rmean (l ++ [x])).
  Proof.
    destruct l as [|y l0] eqn:E; [unfold Rssd, Rmean; cbn; field|]. rewrite <- E in *.
    assert (N : l <> []) by (rewrite E; discriminate). clear E. pose proof (INR_len_pos l N) as P.
    rewrite !Rssd_expand by (try exact N; destruct l; discriminate).
    unfold Rmean. rewrite map_app, !Rsum_app, app_length, plus_INR. cbn [length Rsum map INR].
    field. lra.
  Qed.

  (** Sample variance: n-1 denominator, 0 for one value. *)
  Definition Rsample_var (l : list R) : R :=
    if (length l <=? 1)%nat then 0 else Rssd l / (INR (length l) - 1).
  Lemma wvar_run c (xs : list R) : exists s,
    run_st wvar_step c wvar_new (map Fin xs) = Ok (s, map Fin (each_prefix Rsample_var xs)) /\
    s = mkWvar (length xs) (Fin (if xs then 0 else Rmean xs)) (Fin (if xs then 0 else Rssd xs)).
  Proof.
    induction xs as [|x xs IH] using rev_ind; [eexists; split; reflexivity|].
    destruct IH as (s & R & ->). rewrite map_app, run_st_app, R. cbn [rbind map run_st].
    unfold wvar_step at 1, wvar_next. cbn [wf_n wf_mean wf_dev]. cbn [rbind].
    eexists. rewrite each_prefix_snoc, map_app.
    assert (P : 0 < INR (length xs + 1)) by (apply lt_0_INR; lia).
    assert (Z : match xs ++ [x] with [] => 0 | _ => Rmean (xs ++ [x]) end = Rmean (xs ++ [x])) by (destruct xs; reflexivity).
    assert (Z' : match xs ++ [x] with [] => 0 | _ => Rssd (xs ++ [x]) end = Rssd (xs ++ [x])) by (destruct xs; reflexivity).
    assert (M : fadd (Fin (if xs then 0 else Rmean xs)) (fdiv (fsub (Fin x) (Fin (if xs then 0 else Rmean xs))) (fnat (length xs + 1)))
              = Fin (Rmean (xs ++ [x]))).
    { rewrite fin_nat, fin_sub, fin_div, fin_add by lra. rewrite welford_mean. reflexivity. }
    rewrite M.
    assert (D : fadd (Fin (if xs then 0 else Rssd xs)) (fmul (fsub (Fin x) (Fin (if xs then 0 else Rmean xs))) (fsub (Fin x) (Fin (Rmean (xs ++ [x])))))
              = Fin (Rssd (xs ++ [x]))).
    { rewrite !fin_sub, fin_mul, fin_add, welford_ssd. reflexivity. }
    rewrite D. split.
    - f_equal. f_equal. f_equal. cbn [map]. f_equal. unfold Rsample_var. rewrite app_length. cbn [length].
      destruct (Nat.leb_spec (length xs + 1) 1); [reflexivity|].
      assert (1 < INR (length xs + 1)) by (apply (lt_INR 1); lia).
      rewrite fin_nat, fin_Z, fin_sub, fin_div by lra. reflexivity.
    - rewrite Z, Z', app_length. reflexivity.
  Qed.
  Theorem C41_welford c (xs : list R) :
    run wvar_step c wvar_new (map Fin xs) = Ok (map Fin (each_prefix Rsample_var xs)).
  Proof. destruct (wvar_run c xs) as (s & R & _). unfold run. rewrite R. reflexivity. Qed.
  Theorem C41_var_fast c (xs : list R) :
    run var_step c (var_build true) (map Fin xs) = Ok (map Fin (each_prefix Rsample_var xs)).
  Proof.
    assert (G : forall zs c w, run var_step c (mkVar true ic_new w mean_new) zs = run (F:=xr) wvar_step c w zs).
    { induction zs as [|z zs IH]; intros c0 w; [reflexivity|]. rewrite !run_cons.
      unfold var_step at 1, var_next; cbn [va_fast va_welford va_cache va_mean]. unfold wvar_step at 1.
      destruct (wvar_next w z) as [w' o]. cbn [rbind]. rewrite IH. reflexivity. }
    unfold var_build. rewrite G. apply C41_welford.
  Qed.
  Theorem C41_nonneg (l : list R) : 0 <= Rsample_var l /\ (length l = 1%nat -> Rsample_var l = 0 /\ Rssd l / INR (length l) = 0).
  Proof.
    split.
    - unfold Rsample_var. destruct (Nat.leb_spec (length l) 1); [lra|].
      assert (1 < INR (length l)) by (apply (lt_INR 1); lia).
      apply Rmult_le_pos; [|left; apply Rinv_0_lt_compat; lra].
      apply Rsum_nonneg, Forall_forall. intros x Hx. apply in_map_iff in Hx. destruct Hx as (v & <- & _). apply pow2_ge_0.
    - intros E. destruct l as [|a [|]]; try discriminate. split; [reflexivity|]. unfold Rssd, Rmean; cbn. field.
  Qed.
End C41_exact.

(** A non-trivial case: the values 2, 4, 9. *)
Example C41_case : gives feqb (run var_step ctx6 (var_build false) [q 2; q 4; q 12]) [q 0; q 1; fdiv (q 56) (q 3)] = true.
Proof. vm_compute. reflexivity. Qed.
Example C41_case_fast : gives feqb (run var_step ctx6 (var_build true) [q 2; q 4; q 12]) [q 0; q 2; q 28] = true.
Proof. vm_compute. reflexivity. Qed.

(** ** C42: false of the code *)
Theorem C42_refuted : exists xs : list f64,
  gives feqb (run var_step ctx6 (var_build true) xs) [q 0; q 2; q 28] = true /\
  gives feqb (run var_step ctx6 (var_build false) xs) [q 0; q 1; fdiv (q 56) (q 3)] = true /\
  feqb (q 2) (q 1) = false.
Proof. exists [q 2; q 4; q 12]. split; [|split]; vm_compute; reflexivity. Qed.
(** What holds: with n >= 2 values, fast = slow * n / (n - 1). *)
Theorem C42_partial c (xs : list R) : exists fast slow,
  run var_step c (var_build true) (map Fin xs) = Ok (map Fin fast) /\
  run var_step c (var_build false) (map Fin xs) = Ok (map Fin slow) /\
  length fast = length xs /\ length slow = length xs /\
  forall i f s, nth_error fast i = Some f -> nth_error slow i = Some s -> (f * INR i = s * INR (S i))%R.
Proof.
  exists (each_prefix Rsample_var xs), (each_prefix (fun l => Rssd l / INR (length l))%R xs).
  rewrite C41_var_fast, C41_var_slow, !length_each_prefix. split; [reflexivity|]. split; [|split; [reflexivity|split; [reflexivity|]]].
  - f_equal. rewrite each_prefix_of_map. unfold each_prefix. rewrite map_map. apply map_ext_in. intros p Hp.
    apply in_prefixes in Hp. destruct Hp as (k & Hk & ->). apply C41_batch. destruct xs; [cbn in Hk; lia|discriminate].
  - intros i f s Hf Hs. assert (L : i < length xs) by (rewrite <- (length_each_prefix Rsample_var); apply nth_error_Some; congruence).
    rewrite nth_error_each_prefix in Hf, Hs by exact L.
    assert (LL : length (firstn (S i) xs) = S i) by (apply firstn_length_le; lia).
    remember (firstn (S i) xs) as l. injection Hf as <-. injection Hs as <-.
    unfold Rsample_var. rewrite LL. destruct i as [|i].
    + cbn [Nat.leb]. destruct (C41_nonneg l) as [_ G]. destruct (G LL) as [_ G2]. rewrite LL in G2. rewrite G2. ring.
    + cbn [Nat.leb]. rewrite !S_INR. pose proof (pos_INR i). field. lra.
Qed.

(** ** C43 *)
Section C43.
  Context {F : Type} {NF : Num F} {OF : OrdNum F}.
  Local Open Scope num_scope.
  (** Whatever the value (even NaN), the clipped value is in the interval. *)
  Theorem C43_clip_range (v lo hi : F) : (lo <=? hi) = true ->
    (lo <=? clip_value v lo hi) = true /\ (clip_value v lo hi <=? hi) = true.
  Proof.
    intros H. destruct (le_nonnan _ _ H) as [Nl Nh]. unfold clip_value. split.
    - apply fmin_glb; [apply fmax_ge_r; exact Nl|exact H].
    - apply fmin_le_r; exact Nh.
  Qed.
  Theorem C43_clip_id (v lo hi : F) : (lo <=? v) = true -> (v <=? hi) = true -> clip_value v lo hi = v.
  Proof.
    intros H1 H2. destruct (le_nonnan _ _ H1) as [Nl Nv]. destruct (le_nonnan _ _ H2) as [_ Nh].
    assert (E : fmax v lo = v).
    { unfold fmax. rewrite Nv, Nl. rewrite (le_not_lt _ _ H1). reflexivity. }
    unfold clip_value. rewrite E. unfold fmin. rewrite Nv, Nh, (le_not_lt _ _ H2). reflexivity.
  Qed.
  Lemma zero_one : ((fZ 0 : F) <=? fZ 1) = true.
  Proof. rewrite le_fZ; [reflexivity| |]; cbn; lia. Qed.
  Definition unit_range (x : F) : Prop := (fZ 0 <=? x) = true /\ (x <=? fZ 1) = true.
  Lemma unit_zero : unit_range (fZ 0).
  Proof. split; [apply le_refl, nan_fZ|apply zero_one]. Qed.
  (** For every f64 argument whatsoever. *)
  Theorem C43_scale_range (v t m lo hi : F) :
    unit_range (scale_value_up v t m) /\ unit_range (scale_value_down v t m) /\ unit_range (scale_value_centered v t lo hi).
  Proof.
    pose proof zero_one as Z.
    unfold scale_value_up, scale_value_down, scale_value_centered. split; [|split].
    - destruct (v <=? t); [exact unit_zero|apply C43_clip_range; exact Z].
    - destruct (fgeb v t); [exact unit_zero|apply C43_clip_range; exact Z].
    - apply C43_clip_range; exact Z.
  Qed.
  Theorem C43_scale_threshold (v t m : F) :
    ((v <=? t) = true -> scale_value_up v t m = fZ 0) /\ ((t <=? v) = true -> scale_value_down v t m = fZ 0).
  Proof. unfold scale_value_up, scale_value_down, fgeb. split; intros ->; reflexivity. Qed.
End C43.

Section C43_exact.
  Open Scope R_scope.
  Lemma fin_clip v lo hi : clip_value (Fin v) (Fin lo) (Fin hi) = Fin (Rmin (Rmax v lo) hi).
  Proof. unfold clip_value. rewrite fin_max, fin_min. reflexivity. Qed.
  (** With threshold < max, scaling up is the linear map threshold -> 0,
      max -> 1, clipped. *)
  Theorem C43_scale_up_exact v t m : t < m ->
    scale_value_up (Fin v) (Fin t) (Fin m) = Fin (Rmin (Rmax ((v - t) / (m - t)) 0) 1).
  Proof.
    intros H. unfold scale_value_up. rewrite fin_le.
    assert (P : 0 < / (m - t)) by (apply Rinv_0_lt_compat; lra).
    destruct (Rleb_spec v t) as [L|L].
    - rewrite fin_Z. f_equal. assert (X : (v - t) / (m - t) <= 0) by (unfold Rdiv; nra).
      rewrite Rmax_right by exact X. rewrite Rmin_left; lra.
    - rewrite !fin_sub, fin_div, fin_Z, fin_Z, fin_clip by lra. reflexivity.
  Qed.
  Theorem C43_scale_down_exact v t m : m < t ->
    scale_value_down (Fin v) (Fin t) (Fin m) = Fin (Rmin (Rmax ((t - v) / (t - m)) 0) 1).
  Proof.
    intros H. unfold scale_value_down, fgeb. rewrite fin_le.
    assert (P : 0 < / (t - m)) by (apply Rinv_0_lt_compat; lra).
    destruct (Rleb_spec t v) as [L|L].
    - rewrite fin_Z. f_equal. assert (X : (t - v) / (t - m) <= 0) by (unfold Rdiv; nra).
      rewrite Rmax_right by exact X. rewrite Rmin_left; lra.
    - rewrite !fin_sub, fin_div, fin_Z, fin_Z, fin_clip by lra. do 3 f_equal. field. lra.
  Qed.
  Theorem C43_scale_centered_exact v m lo hi : lo < hi ->
    scale_value_centered (Fin v) (Fin m) (Fin lo) (Fin hi) = Fin (Rmin (Rmax (1 - Rabs (v - m) / ((hi - lo) / 2)) 0) 1).
  Proof.
    intros H. unfold scale_value_centered. rewrite !fin_sub, fin_abs, !fin_Z, fin_div by lra.
    rewrite fin_div by lra. rewrite fin_sub, fin_clip. reflexivity.
  Qed.
  Lemma clip_mono a b : a <= b -> Rmin (Rmax a 0) 1 <= Rmin (Rmax b 0) 1.
  Proof. intros H. apply Rle_min_compat_r. apply Rle_max_compat_r. exact H. Qed.
  Theorem C43_monotone v w t m : v <= w ->
    (t < m -> exists a b, scale_value_up (Fin v) (Fin t) (Fin m) = Fin a /\ scale_value_up (Fin w) (Fin t) (Fin m) = Fin b /\ a <= b) /\
    (m < t -> exists a b, scale_value_down (Fin v) (Fin t) (Fin m) = Fin a /\ scale_value_down (Fin w) (Fin t) (Fin m) = Fin b /\ b <= a).
  Proof.
    intros L. split; intros H.
    - rewrite !C43_scale_up_exact by exact H. do 2 eexists. split; [reflexivity|]. split; [reflexivity|]. apply clip_mono.
      unfold Rdiv. apply Rmult_le_compat_r; [left; apply Rinv_0_lt_compat; lra|lra].
    - rewrite !C43_scale_down_exact by exact H. do 2 eexists. split; [reflexivity|]. split; [reflexivity|]. apply clip_mono.
      unfold Rdiv. apply Rmult_le_compat_r; [left; apply Rinv_0_lt_compat; lra|lra].
  Qed.
  (** Full scale at the far end, and at the centre. *)
  Theorem C43_full_scale t m lo hi : (t < m -> scale_value_up (Fin m) (Fin t) (Fin m) = Fin 1) /\
    (m < t -> scale_value_down (Fin m) (Fin t) (Fin m) = Fin 1) /\
    (lo < hi -> scale_value_centered (Fin t) (Fin t) (Fin lo) (Fin hi) = Fin 1).
  Proof.
    split; [|split]; intros H.
    - rewrite C43_scale_up_exact by exact H. f_equal. replace ((m - t) / (m - t)) with 1 by (field; lra).
      rewrite Rmax_left, Rmin_left by lra. reflexivity.
    - rewrite C43_scale_down_exact by exact H. f_equal. replace ((t - m) / (t - m)) with 1 by (field; lra).
      rewrite Rmax_left, Rmin_left by lra. reflexivity.
    - rewrite C43_scale_centered_exact by exact H. f_equal. replace (t - t) with 0 by ring. rewrite Rabs_R0.
      replace (1 - 0 / ((hi - lo) / 2)) with 1 by (field; lra). rewrite Rmax_left, Rmin_left by lra. reflexivity.
  Qed.
  (** [scale_value_min_max]: the affine map when [min <= 0]... *)
  Theorem C76_min_max_partial v lo hi : lo <= 0 -> lo < hi ->
    scale_value_min_max (Fin v) (Fin lo) (Fin hi) = Fin (2 * (v - lo) / (hi - lo) - 1).
  Proof.
    intros L H. unfold scale_value_min_max, scale_value_around_mean. rewrite fin_Z, fin_lt.
    destruct (Rltb_spec lo 0).
    - rewrite fin_abs, !fin_add, !fin_Z, fin_sub, fin_mul, fin_sub. rewrite Rabs_left by lra. rewrite fin_div by lra.
      f_equal. field. lra.
    - assert (lo = 0) by lra. subst lo. rewrite fin_Z, fin_sub, fin_mul, fin_sub, fin_div by lra. f_equal. field. lra.
  Qed.
  (** ... but not when [min > 0]: there [min] does not map to -1. *)
  Theorem C76_min_max_refuted lo hi : 0 < lo -> lo < hi ->
    scale_value_min_max (Fin lo) (Fin lo) (Fin hi) <> Fin (-1) /\
    scale_value_min_max (Fin hi) (Fin lo) (Fin hi) <> Fin 1.
  Proof.
    intros L H. unfold scale_value_min_max, scale_value_around_mean. rewrite fin_Z, fin_lt.
    destruct (Rltb_spec lo 0); [lra|]. rewrite !fin_Z, !fin_sub, !fin_mul, !fin_sub, !fin_div by lra.
    split; intros E; injection E; intros E'.
    - apply Rmult_eq_compat_r with (r := hi - lo) in E'.
      replace ((2 * lo - (hi - lo)) / (hi - lo) * (hi - lo)) with (2 * lo - (hi - lo)) in E' by (field; lra). lra.
    - apply Rmult_eq_compat_r with (r := hi - lo) in E'.
      replace ((2 * hi - (hi - lo)) / (hi - lo) * (hi - lo)) with (2 * hi - (hi - lo)) in E' by (field; lra). lra.
  Qed.
End C43_exact.

(** ** C44 *)
Section C44.
  Context {F : Type} {NF : Num F}.
  Local Open Scope num_scope.
  (** Agreement of two series under a comparison of elements. *)
  Definition agree {T} (same : T -> T -> Prop) (a e : list T) : Prop :=
    length a = length e /\ forall i x y, nth_error a i = Some x -> nth_error e i = Some y -> same x y.
  Definition both {T} (same : T -> T -> Prop) (a e : option T) : Prop :=
    match a, e with Some a, Some e => same a e | None, None => True | _, _ => False end.
  Definition near (a e : F) : Prop := (fabs (a - e) <? lit 1 100000) = true.

  Theorem C44_assert {T} (cmp : T -> T -> bool) (a e : list T) :
    assert_iter false cmp a e = Ok tt <-> agree (fun x y => cmp x y = true) a e.
  Proof.
    unfold assert_iter, agree, assertb. destruct (Nat.eqb_spec (length a) (length e)) as [L|L]; cbn [rbind].
    2:{ split; [discriminate|]. intros [E _]; contradiction. }
    split.
    - intros H. split; [exact L|]. revert e L H. induction a as [|x a IH]; intros [|y e] L H i u v Hu Hv; try discriminate;
        try (destruct i; discriminate).
      cbn in H. destruct (cmp x y) eqn:C; cbn [negb] in H; [|discriminate].
      destruct i as [|i]; cbn in Hu, Hv; [injection Hu as <-; injection Hv as <-; exact C|].
      eapply IH; [|exact H|exact Hu|exact Hv]. cbn in L; lia.
    - intros [_ H]. revert e L H. induction a as [|x a IH]; intros [|y e] L H; try reflexivity; try discriminate.
      cbn. rewrite (H 0 x y eq_refl eq_refl). cbn [negb]. apply IH; [cbn in L; lia|].
      intros i u v Hu Hv. apply (H (S i)); assumption.
  Qed.
  (** Anything else is an assertion failure, never another outcome. *)
  Theorem C44_otherwise_panics {T} (cmp : T -> T -> bool) (a e : list T) :
    assert_iter false cmp a e = Ok tt \/ assert_iter false cmp a e = Panic.
  Proof. destruct (assert_iter false cmp a e) as [[]|]; auto. Qed.

  Lemma cmp_both {T} (eq : T -> T -> bool) (P : T -> T -> Prop) (H : forall a e, eq a e = true <-> P a e) a e :
    cmp_opt eq a e = true <-> both P a e.
  Proof. destruct a, e; cbn; try apply H; split; (discriminate || tauto || trivial). Qed.
  Lemma near_cmp a e : cmp_opt_f64 a e = true <-> both near a e.
  Proof. apply cmp_both. reflexivity. Qed.

  (** The element types for which the property holds. *)
  Theorem C44_elements :
    (forall a e, cmp_opt_i32 a e = true <-> a = e) /\
    (forall a e, cmp_opt_bool a e = true <-> a = e) /\
    (forall a e, cmp_opt_dir a e = true <-> a = e) /\
    (forall a e, cmp_opt_f64 a e = true <-> both near a e) /\
    (forall a0 a1 a2 e0 e1 e2, cmp_opt2_bool (a0, a1, a2) (e0, e1, e2) = true <-> both near a0 e0 /\ both near a1 e1 /\ a2 = e2) /\
    (forall a e, cmp_pair_f64 a e = true <-> both (fun a e => near (fst a) (fst e) /\ near (snd a) (snd e)) a e) /\
    (forall a e, cmp_triple_opt a e = true <->
       both (fun a e => both near (fst (fst a)) (fst (fst e)) /\ both near (snd (fst a)) (snd (fst e)) /\ both near (snd a) (snd e)) a e) /\
    (forall a e, cmp_quad_opt a e = true <->
       both (fun a e => both near (fst (fst (fst a))) (fst (fst (fst e))) /\ both near (snd (fst (fst a))) (snd (fst (fst e))) /\
                        both near (snd (fst a)) (snd (fst e)) /\ both near (snd a) (snd e)) a e).
  Proof.
    split; [|split; [|split; [|split; [|split; [|split; [|split]]]]]].
    - intros [a|] [e|]; cbn; try (split; (discriminate || reflexivity)). rewrite Z.eqb_eq. split; [intros ->; reflexivity|intros E; injection E; auto].
    - intros [a|] [e|]; cbn; try (split; (discriminate || reflexivity)). rewrite Bool.eqb_true_iff. split; [intros ->; reflexivity|intros E; injection E; auto].
    - intros [[]|] [[]|]; cbn; split; (discriminate || reflexivity).
    - apply near_cmp.
    - intros. unfold cmp_opt2_bool. rewrite !andb_true_iff, !near_cmp, Bool.eqb_true_iff. tauto.
    - apply cmp_both. intros a e. rewrite andb_true_iff. reflexivity.
    - apply cmp_both. intros [[a0 a1] a2] [[e0 e1] e2]. cbn [fst snd]. rewrite !andb_true_iff, !near_cmp. tauto.
    - apply cmp_both. intros [[[a0 a1] a2] a3] [[[e0 e1] e2] e3]. cbn [fst snd]. rewrite !andb_true_iff, !near_cmp. tauto.
  Qed.

  (** The pair-of-optionals comparison looks at the first component only:
      any two second components are accepted. *)
  Theorem C77_pairs_refuted (x : F) (y1 y2 : option F) : near x x ->
    assert_iter false cmp_pair_opt [Some (Some x, y1)] [Some (Some x, y2)] = Ok tt.
  Proof. intros N. cbn. unfold near in N. unfold compare, compare_with_precision. rewrite N. reflexivity. Qed.
  Theorem C77_pairs_partial (a e : option (option F * option F)) :
    cmp_pair_opt a e = true <-> both (fun a e => both near (fst a) (fst e)) a e.
  Proof. apply cmp_both. intros a0 e0. apply near_cmp. Qed.
  (** In debug mode a mismatch is swallowed. *)
  Theorem C44_debug {T} (cmp : T -> T -> bool) (a e : list T) : length a = length e ->
    assert_iter true cmp a e = Ok tt.
  Proof.
    intros L. unfold assert_iter, assertb. apply Nat.eqb_eq in L. rewrite L. cbn [rbind].
    clear L. revert e; induction a as [|x a IH]; intros [|y e]; cbn; try reflexivity. destruct (cmp x y); cbn; [apply IH|reflexivity].
  Qed.
End C44.
(** What "near" means, and that it is symmetric, reflexive on finite values
    and never holds of a NaN. *)
Theorem C44_near_exact (a e : R) : near (Fin a) (Fin e) <-> (Rabs (a - e) < 1 / 100000)%R.
Proof.
  unfold near. rewrite fin_lit by lia. rewrite fin_sub, fin_abs, fin_lt.
  destruct (Rltb_spec (Rabs (a - e)) (1 / 100000)); split; (discriminate || lra || reflexivity || auto).
Qed.
Theorem C44_near_nan (e : f64) : ~ near B754_nan e /\ ~ near e B754_nan.
Proof.
  unfold near. split.
  - destruct e; cbn; discriminate.
  - destruct e as [[]|[]| |]; cbn; discriminate.
Qed.
Example C44_case : assert_iter false cmp_opt_f64 [Some (q 1); None] [Some (q 1); None] = Ok tt /\
  assert_iter false cmp_opt_f64 [Some (q 1); None] [Some (q 2); None] = Panic /\
  assert_iter false cmp_opt_f64 [Some (q 1); None] [Some (q 1)] = Panic /\
  assert_iter false cmp_pair_opt [Some (Some (q 1), None)] [Some (Some (q 1), Some (q 5))] = Ok tt.
Proof. vm_compute. auto. Qed.

(** ** C72 *)
Section C72.
  Context {F : Type} {NF : Num F}.
  Local Open Scope num_scope.
  (** What [Returns] reports: every "change" is against the initial value. *)
  Theorem C72_partial (c : ctx F) v0 xs x : exists s os,
    run_st returns_step c (returns_build v0 false) (xs ++ [x]) = Ok (s, os) /\
    r_delta s = x - v0 /\
    r_mean s = mean (map (fun y => y - v0) (xs ++ [x])) /\
    r_stdev s = stdev (map (fun y => y - v0) (xs ++ [x])).
  Proof.
    set (inv := fun (h : list F) (s : returns_st F) => r_prev s = v0 /\
      r_stdev_st s = mkVar false (map (fun y => y - v0) h) wvar_new (mkMean (fsum (map (fun y => y - v0) h)) (length (map (fun y => y - v0) h))) /\
      r_mean_st s = mkMean (fsum (map (fun y => y - v0) h)) (length (map (fun y => y - v0) h))).
    assert (ST : forall h s z, inv h s -> inv (h ++ [z]) (returns_next s z) /\ r_delta (returns_next s z) = z - v0 /\
        r_mean (returns_next s z) = mean (map (fun y => y - v0) (h ++ [z])) /\
        r_stdev (returns_next s z) = stdev (map (fun y => y - v0) (h ++ [z]))).
    { intros h s z (P & V & M). unfold inv, returns_next. rewrite P, V, M. unfold sstdev_next.
      rewrite var_slow_state. unfold mean_next; cbn [mn_sum mn_n].
      cbn [r_prev r_stdev_st r_mean_st r_delta r_mean r_stdev]. rewrite map_app. cbn [map].
      unfold mean. rewrite fsum_snoc, app_length. cbn [length]. repeat split. }
    assert (R : forall h, exists s os, run_st returns_step c (returns_build v0 false) h = Ok (s, os) /\ inv h s).
    { induction h as [|z h IH] using rev_ind; [do 2 eexists; split; [reflexivity|repeat split]|].
      destruct IH as (s & os & E & I). rewrite run_st_app, E. cbn [rbind run_st returns_step].
      do 2 eexists; split; [reflexivity|]. apply ST; exact I. }
    destruct (R xs) as (s & os & E & I). rewrite run_st_app, E. cbn [rbind run_st returns_step].
    do 2 eexists; split; [reflexivity|]. apply ST; exact I.
  Qed.
End C72.
(** So it is not the change since the previous value: 10, then 12, then 12
    reports 2 again instead of 0. *)
Theorem C72_refuted : exists s os, run_st returns_step ctx6 (returns_build (q 10) false) [q 12; q 12] = Ok (s, os) /\
  feqb (r_delta s) (q 2) = true /\ feqb (fsub (q 12) (q 12)) (q 2) = false.
Proof.
  destruct (C72_partial ctx6 (q 10) [q 12] (q 12)) as (s & os & E & D & _).
  exists s, os. split; [exact E|]. rewrite D. split; vm_compute; reflexivity.
Qed.

(** ** C73 *)
Section C73.
  Open Scope Z_scope.
  Definition leap (y : Z) : bool := ((y mod 4 =? 0) && negb (y mod 100 =? 0)) || (y mod 400 =? 0).
  Definition days_in (y : Z) : Z := if leap y then 366 else 365.
  (** [jan1 y d]: January 1st of year [y] is [d] days after 1970-01-01. *)
  Inductive jan1 : Z -> Z -> Prop :=
  | jan1_epoch : jan1 1970 0
  | jan1_next y d : jan1 y d -> jan1 (y + 1) (d + days_in y)
  | jan1_prev y d : jan1 (y + 1) d -> jan1 y (d - days_in y).

  Lemma dby_next y : days_before_year (y + 1) = days_before_year y + days_in y.
  Proof.
    unfold days_before_year, days_in, leap. cbn zeta. replace (y + 1 - 1) with y by lia.
    pose proof (Z.div_mod y 4). pose proof (Z.div_mod y 100). pose proof (Z.div_mod y 400).
    pose proof (Z.div_mod (y - 1) 4). pose proof (Z.div_mod (y - 1) 100). pose proof (Z.div_mod (y - 1) 400).
    pose proof (Z.mod_pos_bound y 4). pose proof (Z.mod_pos_bound y 100). pose proof (Z.mod_pos_bound y 400).
    pose proof (Z.mod_pos_bound (y - 1) 4). pose proof (Z.mod_pos_bound (y - 1) 100). pose proof (Z.mod_pos_bound (y - 1) 400).
    destruct (Z.eqb_spec (y mod 4) 0), (Z.eqb_spec (y mod 100) 0), (Z.eqb_spec (y mod 400) 0); cbn [andb negb orb]; lia.
  Qed.
  Lemma jan1_dby y d : jan1 y d -> d = days_before_year y.
  Proof.
    induction 1 as [|y d _ IH|y d _ IH]; [reflexivity| |]; pose proof (dby_next y); lia.
  Qed.
  Lemma jan1_exists y : jan1 y (days_before_year y).
  Proof.
    assert (U : forall n, jan1 (1970 + Z.of_nat n) (days_before_year (1970 + Z.of_nat n))).
    { induction n as [|n IH]; [exact jan1_epoch|]. replace (1970 + Z.of_nat (S n)) with (1970 + Z.of_nat n + 1) by lia.
      rewrite dby_next. constructor; exact IH. }
    assert (D : forall n, jan1 (1970 - Z.of_nat n) (days_before_year (1970 - Z.of_nat n))).
    { induction n as [|n IH]; [exact jan1_epoch|].
      replace (days_before_year (1970 - Z.of_nat (S n))) with (days_before_year (1970 - Z.of_nat n) - days_in (1970 - Z.of_nat (S n))).
      - constructor. replace (1970 - Z.of_nat (S n) + 1) with (1970 - Z.of_nat n) by lia. exact IH.
      - pose proof (dby_next (1970 - Z.of_nat (S n))). replace (1970 - Z.of_nat (S n) + 1) with (1970 - Z.of_nat n) in H by lia. lia. }
    destruct (Z.le_ge_cases 1970 y).
    - replace y with (1970 + Z.of_nat (Z.to_nat (y - 1970))) by lia. apply U.
    - replace y with (1970 - Z.of_nat (Z.to_nat (1970 - y))) by lia. apply D.
  Qed.
  Lemma dby_mono y z : y <= z -> days_before_year y <= days_before_year z.
  Proof.
    intros H. replace z with (y + Z.of_nat (Z.to_nat (z - y))) by lia. generalize (Z.to_nat (z - y)). clear.
    intros n; induction n as [|n IH]; [replace (y + Z.of_nat 0) with y by lia; lia|].
    replace (y + Z.of_nat (S n)) with (y + Z.of_nat n + 1) by lia. rewrite dby_next. unfold days_in.
    destruct (leap (y + Z.of_nat n)); lia.
  Qed.

  (** One 400-year cycle, every day of it, by computation in the kernel. *)
  Definition yoe_of (doe : Z) : Z :=
    let yoe := (doe - doe / 1460 + doe / 36524 - doe / 146096) / 365 in
    let doy := doe - (365 * yoe + yoe / 4 - yoe / 100) in
    yoe + (if 306 <=? doy then 1 else 0).
  Definition cycle_ok (doe : Z) : bool :=
    let y := yoe_of doe in
    let d := doe - 719468 in
    (days_before_year y <=? d) && (d <? days_before_year (y + 1)).
  Fixpoint all_upto (n : nat) (z : Z) : bool :=
    match n with O => true | S n => cycle_ok z && all_upto n (z + 1) end.
  Lemma all_upto_spec n z : all_upto n z = true -> forall x, z <= x < z + Z.of_nat n -> cycle_ok x = true.
  Proof.
    revert z; induction n as [|n IH]; intros z H x Hx; [lia|]. cbn in H. apply andb_true_iff in H. destruct H as [H1 H2].
    destruct (Z.eq_dec x z) as [->|N]; [exact H1|]. apply (IH (z + 1) H2). lia.
  Qed.
  Lemma cycle_all : all_upto (Z.to_nat 146097) 0 = true.
  Proof. vm_compute. reflexivity. Qed.
  Lemma dby_cycle y k : days_before_year (y + k * 400) = days_before_year y + k * 146097.
  Proof.
    unfold days_before_year. cbn zeta.
    replace (y + k * 400 - 1) with (y - 1 + k * 100 * 4) by lia. rewrite Z.div_add by lia.
    replace (y - 1 + k * 100 * 4) with (y - 1 + k * 4 * 100) by lia. rewrite Z.div_add by lia.
    replace (y - 1 + k * 4 * 100) with (y - 1 + k * 400) by lia. rewrite Z.div_add by lia. lia.
  Qed.
  Lemma year_of_days_bounds d : let y := year_of_days d in days_before_year y <= d < days_before_year (y + 1).
  Proof.
    cbn zeta. unfold year_of_days. cbn zeta. set (era := (d + 719468) / 146097).
    set (doe := d + 719468 - era * 146097).
    assert (B : 0 <= doe < 146097).
    { unfold doe, era. pose proof (Z.div_mod (d + 719468) 146097). pose proof (Z.mod_pos_bound (d + 719468) 146097). lia. }
    assert (C : cycle_ok doe = true) by (apply (all_upto_spec _ _ cycle_all); lia).
    unfold cycle_ok in C. cbn zeta in C. apply andb_true_iff in C. destruct C as [C1 C2].
    apply Z.leb_le in C1. apply Z.ltb_lt in C2. unfold yoe_of in C1, C2. cbn zeta in C1, C2.
    set (yoe := (doe - doe / 1460 + doe / 36524 - doe / 146096) / 365) in *.
    set (add := if 306 <=? doe - (365 * yoe + yoe / 4 - yoe / 100) then 1 else 0) in *.
    replace (yoe + era * 400 + add) with (yoe + add + era * 400) by lia.
    replace (yoe + add + era * 400 + 1) with (yoe + add + 1 + era * 400) by lia.
    rewrite !dby_cycle. unfold doe in C1, C2. lia.
  Qed.

  (** The year the filter sees is the one whose January 1st is not after the
      bar's day while the next year's is. *)
  Theorem C73_year ms y : year_of_millis ms = Ok y ->
    forall d0 d1, jan1 y d0 -> jan1 (y + 1) d1 -> d0 * 86400000 <= ms < d1 * 86400000.
  Proof.
    unfold year_of_millis. cbn zeta.
    destruct ((-262144 <=? year_of_days (ms / 86400000)) && (year_of_days (ms / 86400000) <=? 262143)); [|discriminate].
    intros E d0 d1 J0 J1. injection E as <-. apply jan1_dby in J0, J1. subst.
    pose proof (year_of_days_bounds (ms / 86400000)) as B. cbn zeta in B.
    pose proof (Z.div_mod ms 86400000). pose proof (Z.mod_pos_bound ms 86400000). lia.
  Qed.

  Context {F : Type} {NF : Num F}.
  (** The filter: a bar with time [ns] nanoseconds after the epoch is before
      the start year iff it lies before January 1st of that year. *)
  Theorem C73_filter (c : ctx F) ns start d : nth_error (p_time (c_data c)) (c_index c) = Some (Some ns) ->
    0 <= ns / 1000000 < 2 ^ 63 -> jan1 start d ->
    forall y, bar_year c = Ok y -> ((y <? start) = true <-> ns / 1000000 < d * 86400000).
  Proof.
    intros T B J y. unfold bar_year, bar_time, vget. rewrite T. cbn [unwrap rbind].
    assert (W : wrap64 (ns / 1000000) = ns / 1000000).
    { unfold wrap64. cbn zeta. rewrite Z.mod_small by lia. destruct (Z.ltb_spec (ns / 1000000) (2 ^ 63)); lia. }
    rewrite W. intros E. pose proof (C73_year _ _ E _ _ (jan1_exists y) (jan1_exists (y + 1))) as R.
    apply jan1_dby in J. subst d. rewrite Z.ltb_lt. split; intros H.
    - assert (days_before_year (y + 1) <= days_before_year start) by (apply dby_mono; lia). lia.
    - destruct (Z.lt_ge_cases y start) as [L|L]; [exact L|].
      assert (days_before_year start <= days_before_year y) by (apply dby_mono; lia). lia.
  Qed.
  (** Every time of the 20th to 3rd-millennium range has a year (no panic). *)
  Theorem C73_total ms : 0 <= ms < 10 ^ 15 -> exists y, year_of_millis ms = Ok y.
  Proof.
    intros B. unfold year_of_millis. cbn zeta.
    pose proof (year_of_days_bounds (ms / 86400000)) as Y. cbn zeta in Y. set (y := year_of_days (ms / 86400000)) in *.
    assert (D : 0 <= ms / 86400000 <= 11574075).
    { split; [apply Z.div_pos; lia|]. apply Z.div_le_upper_bound; lia. }
    assert (L : 0 <= y) by (destruct (Z.le_gt_cases 0 y) as [G|G]; [exact G|];
      assert (days_before_year (y + 1) <= days_before_year 0) by (apply dby_mono; lia); change (days_before_year 0) with (-719528) in *; lia).
    assert (U : y <= 262143) by (destruct (Z.le_gt_cases y 262143) as [G|G]; [exact G|];
      assert (days_before_year 262144 <= days_before_year y) by (apply dby_mono; lia);
      change (days_before_year 262144) with 95026602 in *; lia).
    exists y. destruct (Z.leb_spec (-262144) y); [|lia]. destruct (Z.leb_spec y 262143); [reflexivity|lia].
  Qed.
End C73.
Example C73_case : year_of_millis 1704067199999 = Ok 2023%Z /\ year_of_millis 1704067200000 = Ok 2024%Z /\
  year_of_millis 0 = Ok 1970%Z /\ year_of_millis (-1) = Ok 1969%Z.
Proof. vm_compute. auto. Qed.
