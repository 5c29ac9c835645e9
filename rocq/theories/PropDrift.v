(** * PropDrift: C122 (averages recomputed from their window do not drift in f64). *)
From Coq Require Import Reals Lra Lia Psatz.
From Flocq Require Import Core IEEE754.BinarySingleNaN Relative.
From Verif Require Import Inst PropTick PropWin PIeee2 PRound PMono PropError PExact PTa1 PTa4 PropWindow PropTa1.
Local Open Scope R_scope.

(** [y] is near the real average [r] of values whose absolute values average
    to [a]: at most [m] roundings and [k] underflows away. *)
Definition average_near (m k : nat) (y : f64) (r a : R) : Prop :=
  Rabs (B2R y - r) <= grown m * a + (1 + grown m) * (INR k * eta64).

Lemma Rplus_all_Rsum l : Rplus_all l = Rsum l.
Proof. induction l as [|x l IH]; [reflexivity|]. unfold Rplus_all in *. cbn. rewrite IH. reflexivity. Qed.
Lemma Rweighted_nonneg l : forall w, Forall (fun x => 0 <= x) l -> 0 <= Rweighted w l.
Proof.
  induction l as [|x l IH]; intros w H; cbn [Rweighted]; [lra|]. inversion H; subst.
  pose proof (pos_INR w). assert (0 <= INR w * x) by (apply Rmult_le_pos; assumption). pose proof (IH (S w) H3). lra.
Qed.

Lemma Rwmean_len l n : length l = n -> Rwmean l = Rweighted 1 l / triangular n.
Proof. intros <-. reflexivity. Qed.
Lemma some_at {A} (os : list (option A)) l i : map is_some os = l -> nth_error l i = Some true -> exists y, nth_error os i = Some (Some y).
Proof.
  intros <- H. rewrite nth_error_map in H. destruct (nth_error os i) as [[y|]|]; [exists y; reflexivity|discriminate H|discriminate H].
Qed.
Lemma fin_eq a b : Fin a = Fin b -> a = b. Proof. congruence. Qed.

Section C122.
  Variable log10 : f64 -> f64.
  #[local] Instance N122 : Num f64 := IEEE log10.

  (** The terms of the weighted sum, newest value first, with their weights. *)
  Fixpoint terms (len i : nat) (vs : list f64) : list (f64 * nat) :=
    match vs with [] => [] | v :: t => (v, ((len - i) * len)%nat) :: terms len (S i) t end.
  Definition product (p : f64 * nat) : f64 := fmul (fst p) (fnat (snd p)).
  Definition amount (p : f64 * nat) : R := B2R (fst p) * INR (snd p).
  Lemma sums_terms len vs : forall i s n,
    wma_sums len vs i s n = (fold_left fadd (map product (terms len i vs)) s, fold_left fadd (map (fun p => fnat (snd p)) (terms len i vs)) n).
  Proof. induction vs as [|v vs IH]; intros i s n; cbn [wma_sums terms map fold_left]; [reflexivity|]. rewrite IH. reflexivity. Qed.
  Lemma terms_length len vs : forall i, length (terms len i vs) = length vs.
  Proof. induction vs as [|v vs IH]; intros i; cbn; [reflexivity|]. rewrite IH. reflexivity. Qed.
  Lemma terms_fst len vs : forall i, map fst (terms len i vs) = vs.
  Proof. induction vs as [|v vs IH]; intros i; cbn; [reflexivity|]. rewrite IH. reflexivity. Qed.
  Lemma terms_weight len vs : forall i p, In p (terms len i vs) -> (snd p <= len * len)%nat.
  Proof. induction vs as [|v vs IH]; intros i p H; cbn in H; [contradiction|]. destruct H as [<-|H]; [cbn; nia|eapply IH; exact H]. Qed.
  Lemma amounts_sum len vs (g : R -> R) : forall i,
    Rsum (map (fun p => g (B2R (fst p)) * INR (snd p)) (terms len i vs)) =
    INR len * Rsum (map (fun p => INR (len - fst p) * snd p) (combine (seq i (length vs)) (map g (map B2R vs)))).
  Proof.
    induction vs as [|v vs IH]; intros i; cbn [terms map length seq combine Rsum fst snd]; [lra|].
    rewrite IH, mult_INR. ring.
  Qed.
  Lemma amounts_weighted len vs (g : R -> R) : length vs = len ->
    Rsum (map (fun p => g (B2R (fst p)) * INR (snd p)) (terms len 0 (rev vs))) = INR len * Rweighted 1 (map g (map B2R vs)).
  Proof.
    intros L. rewrite amounts_sum. f_equal. pose proof (wsum_rev (map g (map B2R (rev vs))) len 0) as W.
    rewrite !map_length, rev_length in *. rewrite W by lia. rewrite !map_rev, rev_involutive. reflexivity.
  Qed.
  Lemma nat_exact k : (Z.of_nat k <= 2 ^ 53)%Z -> is_finite (fnat k : f64) = true /\ B2R (fnat k : f64) = INR k.
  Proof.
    intros H. destruct (f64_ofZ_correct (Z.of_nat k)) as [V F]; [lia|]. split; [exact F|]. rewrite INR_IZR_INZ. exact V.
  Qed.
  (** Adding up whole numbers is exact. *)
  Lemma norm_exact ks : forall n (x : f64), is_finite x = true -> B2R x = INR n ->
    (Z.of_nat (n + fold_right Nat.add 0%nat ks) < 2 ^ 53)%Z ->
    let y := fold_left fadd (map (fun k => fnat k : f64) ks) x in is_finite y = true /\ B2R y = INR (n + fold_right Nat.add 0%nat ks).
  Proof.
    induction ks as [|k ks IH]; intros n x F V B; cbn zeta; cbn [map fold_left fold_right] in *.
    - rewrite Nat.add_0_r. split; assumption.
    - destruct (nat_exact k) as [F1 V1]; [lia|].
      assert (T1 : ticks_of 0 (Z.of_nat n) x) by (split; [exact F|]; exists (Z.of_nat n); split; [rewrite V, INR_IZR_INZ; cbn [bpow]; ring|lia]).
      assert (T2 : ticks_of 0 (Z.of_nat k) (fnat k)) by (split; [exact F1|]; exists (Z.of_nat k); split; [rewrite V1, INR_IZR_INZ; cbn [bpow]; ring|lia]).
      destruct (tk_add log10 0 ltac:(lia) _ _ _ _ T1 T2 ltac:(lia)) as [(F3 & _) X].
      assert (V3 : B2R (fadd x (fnat k : f64)) = INR (n + k)).
      { rewrite (to_xr_finite _ F3), (to_xr_finite _ F), (to_xr_finite _ F1), fin_add in X. rewrite plus_INR, <- V, <- V1. exact (fin_eq _ _ X). }
      destruct (IH (n + k)%nat _ F3 V3 ltac:(lia)) as [Fy Vy]. split; [exact Fy|]. refine (eq_trans Vy _). f_equal. lia.
  Qed.
  Definition weight_sum (len n i : nat) : nat := fold_right Nat.add 0%nat (map (fun k => ((len - k) * len)%nat) (seq i n)).
  Lemma terms_weights len vs : forall i, map snd (terms len i vs) = map (fun k => ((len - k) * len)%nat) (seq i (length vs)).
  Proof. induction vs as [|v vs IH]; intros i; cbn; [reflexivity|]. rewrite IH. reflexivity. Qed.
  Lemma weight_sum_INR len n : forall i, INR (weight_sum len n i) = INR len * Rsum (map (fun k => INR (len - k)) (seq i n)).
  Proof.
    unfold weight_sum. induction n as [|n IH]; intros i; cbn [seq map fold_right Rsum]; [cbn; ring|]. rewrite plus_INR, mult_INR, IH. ring.
  Qed.
  Lemma weight_sum_le len n : forall i, (weight_sum len n i <= n * (len * len))%nat.
  Proof.
    unfold weight_sum. induction n as [|n IH]; intros i; cbn [seq map fold_right]; [lia|]. specialize (IH (S i)). nia.
  Qed.
  Lemma len_small len : (Z.of_nat len <= 2 ^ 17)%Z -> (Z.of_nat (len * (len * len)) < 2 ^ 53)%Z.
  Proof. intros H. rewrite !Nat2Z.inj_mul. set (z := Z.of_nat len) in *. assert (0 <= z)%Z by lia. assert (z * z <= 2 ^ 34)%Z by nia. nia. Qed.

  Lemma product_near p : (Z.of_nat (snd p) <= 2 ^ 53)%Z -> is_finite (product p) = true ->
    is_finite (fst p) = true /\ Rabs (B2R (product p) - amount p) <= grown 2 * Rabs (amount p) + (1 + grown 2) * eta64.
  Proof.
    intros B F. destruct (nat_exact _ B) as [F2 V2]. destruct (mult_rel (fst p) (fnat (snd p)) F) as (F1 & _ & E).
    split; [exact F1|]. unfold amount, product. rewrite V2 in E. change (fmul (fst p) (fnat (snd p))) with (Bmult mode_NE (fst p) (fnat (snd p) : f64)).
    eapply Rle_trans; [exact E|]. pose proof u64_pos. pose proof eta64_pos. pose proof (grown_nonneg 2).
    pose proof (grown_mono 1 2 ltac:(lia)) as G. rewrite grown_1 in G. pose proof (Rabs_pos (B2R (fst p) * INR (snd p))) as P.
    apply Rplus_le_compat; [apply Rmult_le_compat_r; assumption|]. nra.
  Qed.

  Lemma wma_value_near len (vs : list f64) (y : f64) : (1 <= len)%nat -> (Z.of_nat len <= 2 ^ 17)%Z -> length vs = len ->
    (let '(s, n) := wma_sums len (rev vs) 0 (fZ 0) (fZ 0) in fdiv s n) = y -> is_finite y = true ->
    Forall (fun x => is_finite x = true) vs /\
    average_near (len + 3) (len + 1) y (Rwmean (map B2R vs)) (Rwmean (map Rabs (map B2R vs))).
  Proof.
    intros L B LV. rewrite sums_terms. set (ts := terms len 0 (rev vs)). intros <- F.
    assert (LT : length ts = len) by (unfold ts; rewrite terms_length, rev_length; exact LV).
    assert (W : forall p, In p ts -> (Z.of_nat (snd p) <= 2 ^ 53)%Z).
    { intros p I. apply terms_weight in I. pose proof (len_small len B). nia. }
    set (NN := fold_left fadd (map (fun p : f64 * nat => fnat (snd p) : f64) ts) (fZ 0)) in *.
    assert (EN : is_finite NN = true /\ B2R NN = INR len * triangular len).
    { unfold NN. rewrite <- (map_map snd (fun k => fnat k : f64)). unfold ts. rewrite terms_weights, rev_length, LV.
      pose proof (weight_sum_le len len 0) as WL. pose proof (len_small len B) as LS.
      destruct (f64_ofZ_correct 0) as [V0 F0]; [cbn; lia|].
      destruct (norm_exact (map (fun k => ((len - k) * len)%nat) (seq 0 len)) 0 (f64_ofZ 0) F0 V0) as [F1 V1].
      { fold (weight_sum len len 0). lia. }
      split; [exact F1|]. refine (eq_trans V1 _). fold (weight_sum len len 0). rewrite Nat.add_0_l, weight_sum_INR, triangle_sum by lia. reflexivity. }
    destruct EN as [FN VN]. pose proof (triangle_pos len L) as TP. assert (LP : 1 <= INR len) by (change 1 with (INR 1); apply le_INR, L).
    assert (T1 : 1 <= triangular len) by (unfold triangular; nra).
    assert (N1 : 1 <= INR len * triangular len) by nra.
    change (fdiv (fold_left fadd (map product ts) (fZ 0)) NN) with (Bdiv mode_NE (total (map product ts)) NN) in *.
    destruct (div_rel _ _ F FN ltac:(rewrite VN; lra)) as [FS D]. rewrite VN in D.
    destruct (C119_sum log10 _ FS) as [FA _]. rewrite Forall_map in FA. rewrite Forall_forall in FA.
    assert (FV : Forall (fun x => is_finite x = true) vs).
    { apply Forall_forall. intros x I. assert (I' : In x (map fst ts)) by (unfold ts; rewrite terms_fst; apply -> in_rev; exact I).
      apply in_map_iff in I'. destruct I' as (p & <- & I'). apply product_near; [apply W, I'|apply FA, I']. }
    split; [exact FV|].
    destruct (sum_of_near log10 ts product amount FS) as [_ NS].
    { intros p I Fp. apply product_near; [apply W, I|exact Fp]. }
    rewrite LT in NS. assert (A1 : Rplus_all (map amount ts) = INR len * Rweighted 1 (map B2R vs)).
    { rewrite Rplus_all_Rsum. pose proof (amounts_weighted len vs (fun r => r) LV) as A1. cbv beta in A1. rewrite map_id in A1. exact A1. }
    rewrite A1 in NS.
    assert (A2 : Rplus_all (map Rabs (map amount ts)) = INR len * Rweighted 1 (map Rabs (map B2R vs))).
    { rewrite Rplus_all_Rsum, <- (amounts_weighted len vs Rabs LV). fold ts. rewrite map_map. f_equal. apply map_ext. intros p. unfold amount.
      refine (eq_trans (Rabs_mult _ _) _). f_equal. apply Rabs_pos_eq, pos_INR. }
    rewrite A2 in NS. clear A1 A2. unfold average_near.
    rewrite (Rwmean_len (map B2R vs) len) by (rewrite map_length; exact LV).
    rewrite (Rwmean_len (map Rabs (map B2R vs)) len) by (rewrite !map_length; exact LV).
    set (S := B2R (total (map product ts))) in *. set (Y := B2R (Bdiv mode_NE (total (map product ts)) NN)) in *.
    set (a := Rweighted 1 (map B2R vs)) in *. set (b := Rweighted 1 (map Rabs (map B2R vs))) in *.
    assert (B0 : 0 <= b) by (apply Rweighted_nonneg; rewrite Forall_map; apply Forall_forall; intros; apply Rabs_pos).
    set (n := INR len) in *. set (t := triangular len) in *.
    assert (AB : Rabs a <= b).
    { unfold a, b. clear. generalize 1%nat as w. induction (map B2R vs) as [|x l IH]; intros w; cbn [Rweighted map]; [rewrite Rabs_R0; lra|].
      eapply Rle_trans; [apply Rabs_triang|]. rewrite Rabs_mult, (Rabs_pos_eq (INR w)) by apply pos_INR. pose proof (IH (Datatypes.S w)). lra. }
    pose proof (grown_nonneg (len + 2)) as G0. pose proof u64_pos as U. pose proof eta64_pos as H0.
    assert (G : 1 + grown (len + 3) = (1 + grown (len + 2)) * (1 + u64)) by (replace (len + 3)%nat with (Datatypes.S (len + 2)) by lia; apply grown_S).
    set (g := grown (len + 2)) in *.
    (* divide the bound on the numerator *)
    assert (P : 0 < n * t) by lra.
    assert (Q : Rabs (S / (n * t) - a / t) <= g * (b / t) + (1 + g) * (n * eta64)).
    { replace (S / (n * t) - a / t) with ((S - n * a) * / (n * t)) by (field; split; lra).
      rewrite Rabs_mult, (Rabs_pos_eq (/ (n * t))) by (apply Rlt_le, Rinv_0_lt_compat; lra).
      apply Rle_trans with ((g * (n * b) + (1 + g) * (n * eta64)) * / (n * t)).
      - apply Rmult_le_compat_r; [apply Rlt_le, Rinv_0_lt_compat; lra|exact NS].
      - rewrite Rmult_plus_distr_r. apply Rplus_le_compat.
        + right. field. split; lra.
        + rewrite <- (Rmult_1_r ((1 + g) * (n * eta64))) at 2. apply Rmult_le_compat_l.
          * apply Rmult_le_pos; [lra|]. apply Rmult_le_pos; lra.
          * rewrite <- Rinv_1. apply Rinv_le_contravar; lra. }
    assert (BT : 0 <= b / t) by (apply Rmult_le_pos; [exact B0|apply Rlt_le, Rinv_0_lt_compat; lra]).
    assert (AT : Rabs (a / t) <= b / t).
    { unfold Rdiv. rewrite Rabs_mult, (Rabs_pos_eq (/ t)) by (apply Rlt_le, Rinv_0_lt_compat; lra).
      apply Rmult_le_compat_r; [apply Rlt_le, Rinv_0_lt_compat; lra|exact AB]. }
    assert (SB : Rabs (S / (n * t)) <= (1 + g) * (b / t) + (1 + g) * (n * eta64)).
    { replace (S / (n * t)) with ((S / (n * t) - a / t) + a / t) by ring. eapply Rle_trans; [apply Rabs_triang|]. lra. }
    replace (Y - a / t) with ((Y - S / (n * t)) + (S / (n * t) - a / t)) by ring. eapply Rle_trans; [apply Rabs_triang|].
    replace (grown (len + 3)) with ((1 + g) * (1 + u64) - 1) by (rewrite <- G; ring).
    assert (INR (len + 1) = n + 1) as -> by (rewrite plus_INR; reflexivity).
    assert (u64 * Rabs (S / (n * t)) <= u64 * ((1 + g) * (b / t) + (1 + g) * (n * eta64))) by (apply Rmult_le_compat_l; lra).
    assert (0 <= (1 + g) * (1 + u64) * eta64 - eta64).
    { replace ((1 + g) * (1 + u64) * eta64 - eta64) with (((1 + g) * (1 + u64) - 1) * eta64) by ring. apply Rmult_le_pos; [nra|lra]. }
    nra.
  Qed.

  (** Numbers that stay below a bound that is itself representable. *)
  Notation fexp64 := (SpecFloat.fexp 53 1024).
  Lemma bound_format k e : (Z.of_nat k <= 2 ^ 53)%Z -> (-1074 <= e)%Z -> generic_format radix2 fexp64 (INR k * bpow radix2 e).
  Proof.
    intros B E. destruct (Z.eq_dec (Z.of_nat k) (2 ^ 53)) as [K|K].
    - rewrite INR_IZR_INZ, K. change (IZR (2 ^ 53)) with (bpow radix2 53). rewrite <- bpow_plus.
      apply generic_format_FLT with (emin := (3 - 1024 - 53)%Z) (prec := 53%Z). exists (Float radix2 1 (53 + e)); cbn [Fnum Fexp F2R]; [unfold F2R; cbn [Fnum Fexp]; ring|cbn; lia|lia].
    - apply generic_format_FLT with (emin := (3 - 1024 - 53)%Z) (prec := 53%Z). rewrite INR_IZR_INZ.
      exists (Float radix2 (Z.of_nat k) e); cbn [Fnum Fexp]; [reflexivity|rewrite Z.abs_eq by lia; change (radix2 ^ 53)%Z with (2 ^ 53)%Z; lia|lia].
  Qed.
  Lemma rounded_bound k e r : (Z.of_nat k <= 2 ^ 53)%Z -> (-1074 <= e)%Z -> Rabs r <= INR k * bpow radix2 e ->
    Rabs (round radix2 fexp64 (round_mode mode_NE) r) <= INR k * bpow radix2 e.
  Proof.
    intros B E H. apply (@abs_round_le_generic radix2 fexp64 (@fexp_correct 53 1024 eq_refl) (round_mode mode_NE) _).
    - apply bound_format; assumption.
    - exact H.
  Qed.
  Lemma below_max k e : (Z.of_nat k <= 2 ^ 53)%Z -> (e <= 970)%Z -> INR k * bpow radix2 e < bpow radix2 1024.
  Proof.
    intros B E. apply Rle_lt_trans with (bpow radix2 53 * bpow radix2 e).
    - apply Rmult_le_compat_r; [apply bpow_ge_0|]. rewrite INR_IZR_INZ. change (bpow radix2 53) with (IZR (2 ^ 53)). apply IZR_le, B.
    - rewrite <- bpow_plus. apply bpow_lt. lia.
  Qed.
  Lemma plus_bounded j k e (x y : f64) : is_finite x = true -> is_finite y = true -> (Z.of_nat (j + k) <= 2 ^ 53)%Z -> (-1074 <= e <= 970)%Z ->
    Rabs (B2R x) <= INR j * bpow radix2 e -> Rabs (B2R y) <= INR k * bpow radix2 e ->
    is_finite (fadd x y) = true /\ Rabs (B2R (fadd x y)) <= INR (j + k) * bpow radix2 e.
  Proof.
    intros Fx Fy B E Hx Hy. assert (H : Rabs (B2R x + B2R y) <= INR (j + k) * bpow radix2 e).
    { eapply Rle_trans; [apply Rabs_triang|]. rewrite plus_INR. lra. }
    pose proof (rounded_bound (j + k) e _ B ltac:(lia) H) as R1. pose proof (below_max (j + k) e B ltac:(lia)) as R2.
    pose proof (Bplus_correct 53 1024 _ _ mode_NE x y Fx Fy) as C. rewrite Rlt_bool_true in C by (eapply Rle_lt_trans; eassumption).
    destruct C as (C & F & _). split; [exact F|]. change (fadd x y) with (Bplus mode_NE x y). rewrite C. exact R1.
  Qed.
  Lemma mult_bounded k e (x y : f64) : is_finite x = true -> is_finite y = true -> (Z.of_nat k <= 2 ^ 53)%Z -> (-1074 <= e <= 970)%Z ->
    Rabs (B2R x * B2R y) <= INR k * bpow radix2 e ->
    is_finite (fmul x y) = true /\ Rabs (B2R (fmul x y)) <= INR k * bpow radix2 e.
  Proof.
    intros Fx Fy B E H. pose proof (rounded_bound k e _ B ltac:(lia) H) as R1. pose proof (below_max k e B ltac:(lia)) as R2.
    pose proof (Bmult_correct 53 1024 _ _ mode_NE x y) as C. rewrite Rlt_bool_true in C by (eapply Rle_lt_trans; eassumption).
    destruct C as (C & F & _). split; [refine (eq_trans F _); rewrite Fx, Fy; reflexivity|]. change (fmul x y) with (Bmult mode_NE x y). rewrite C. exact R1.
  Qed.
  Lemma total_bounded e (l : list f64) : (-1074 <= e <= 970)%Z -> (Z.of_nat (length l) <= 2 ^ 53)%Z ->
    Forall (fun x => is_finite x = true /\ Rabs (B2R x) <= bpow radix2 e) l ->
    is_finite (total l) = true /\ Rabs (B2R (total l)) <= INR (length l) * bpow radix2 e.
  Proof.
    intros E. induction l as [|x l IH] using rev_ind; intros B H.
    - destruct (f64_ofZ_correct 0) as [V0 F0]; [cbn; lia|]. split; [exact F0|]. change (total (@nil f64)) with (f64_ofZ 0). rewrite V0, Rabs_R0. cbn. lra.
    - apply Forall_app in H. destruct H as [Hl Hx]. inversion Hx as [|? ? [Fx Bx] _]; subst. rewrite app_length in *. cbn [length] in *.
      destruct (IH ltac:(lia) Hl) as [F1 B1]. rewrite (total_snoc log10). apply plus_bounded; try assumption. cbn [INR]. lra.
  Qed.

  (** Window values up to [2^900]: the result is a number. *)
  Definition moderate (x : f64) : Prop := is_finite x = true /\ Rabs (B2R x) <= bpow radix2 900.
  Lemma wma_value_finite len (vs : list f64) : (1 <= len)%nat -> (Z.of_nat len <= 2 ^ 17)%Z -> length vs = len -> Forall moderate vs ->
    is_finite (let '(s, n) := wma_sums len (rev vs) 0 (fZ 0) (fZ 0) in fdiv s n) = true.
  Proof.
    intros L B LV M. rewrite sums_terms. set (ts := terms len 0 (rev vs)).
    assert (LT : length ts = len) by (unfold ts; rewrite terms_length, rev_length; exact LV).
    pose proof (len_small len B) as LS.
    assert (W : forall p, In p ts -> (Z.of_nat (snd p) <= 2 ^ 34)%Z).
    { intros p I. apply terms_weight in I. apply inj_le in I. rewrite Nat2Z.inj_mul in I. eapply Z.le_trans; [exact I|].
      change (2 ^ 34)%Z with (2 ^ 17 * 2 ^ 17)%Z. apply Z.mul_le_mono_nonneg; lia. }
    destruct (f64_ofZ_correct 0) as [V0 F0]; [cbn; lia|].
    assert (EN : is_finite (fold_left fadd (map (fun p : f64 * nat => fnat (snd p) : f64) ts) (f64_ofZ 0)) = true /\
      1 <= B2R (fold_left fadd (map (fun p : f64 * nat => fnat (snd p) : f64) ts) (f64_ofZ 0))).
    { rewrite <- (map_map snd (fun k => fnat k : f64)). unfold ts. rewrite terms_weights, rev_length, LV.
      pose proof (weight_sum_le len len 0) as WL.
      destruct (norm_exact (map (fun k => ((len - k) * len)%nat) (seq 0 len)) 0 (f64_ofZ 0) F0 V0) as [F1 V1].
      { fold (weight_sum len len 0). lia. }
      split; [exact F1|]. eapply Rle_trans; [|right; symmetry; exact V1]. change 1 with (INR 1). apply le_INR.
      rewrite Nat.add_0_l. destruct len as [|l]; [lia|]. cbn [seq map fold_right]. nia. }
    destruct EN as [FN N1].
    assert (P : Forall (fun x => is_finite x = true /\ Rabs (B2R x) <= bpow radix2 934) (map product ts)).
    { rewrite Forall_map. apply Forall_forall. intros p I. pose proof (W p I) as Wp. destruct (nat_exact (snd p)) as [F2 V2]; [lia|].
      assert (Mp : moderate (fst p)).
      { rewrite Forall_forall in M. apply M. apply in_rev. rewrite <- (terms_fst len (rev vs) 0). apply in_map. exact I. }
      destruct Mp as [F1 B1]. pose proof (mult_bounded 1 934 (fst p) (fnat (snd p)) F1 F2 ltac:(cbn; lia) ltac:(lia)) as Q.
      cbn [INR] in Q. rewrite Rmult_1_l in Q. apply Q. rewrite V2. refine (Rle_trans _ _ _ (Req_le _ _ (Rabs_mult _ _)) _).
      change 934%Z with (900 + 34)%Z. rewrite bpow_plus. apply Rmult_le_compat; [apply Rabs_pos|apply Rabs_pos|exact B1|].
      rewrite Rabs_pos_eq by apply pos_INR. rewrite INR_IZR_INZ. change (bpow radix2 34) with (IZR (2 ^ 34)). apply IZR_le, Wp. }
    destruct (total_bounded 934 _ ltac:(lia) ltac:(rewrite map_length, LT; lia) P) as [FS BS]. rewrite map_length, LT in BS.
    change (is_finite (Bdiv mode_NE (total (map product ts)) (fold_left fadd (map (fun p : f64 * nat => fnat (snd p) : f64) ts) (f64_ofZ 0))) = true).
    set (NN := fold_left fadd _ _) in *. set (SS := total (map product ts)) in *.
    assert (DB : Rabs (B2R SS / B2R NN) <= bpow radix2 1022).
    { unfold Rdiv. rewrite Rabs_mult. apply Rle_trans with (Rabs (B2R SS) * 1).
      - apply Rmult_le_compat_l; [apply Rabs_pos|]. rewrite Rabs_pos_eq by (apply Rlt_le, Rinv_0_lt_compat; lra). rewrite <- Rinv_1. apply Rinv_le_contravar; lra.
      - rewrite Rmult_1_r. eapply Rle_trans; [exact BS|]. apply Rle_trans with (bpow radix2 17 * bpow radix2 934).
        + apply Rmult_le_compat_r; [apply bpow_ge_0|]. rewrite INR_IZR_INZ. change (bpow radix2 17) with (IZR (2 ^ 17)). apply IZR_le, B.
        + rewrite <- bpow_plus. apply bpow_le. lia. }
    destruct (div_near SS NN FS FN ltac:(lra) DB) as [F _]. exact F.
  Qed.

  (** ** Wma: whatever came before the window, and however many bars have been
      fed, an output that is a number is within [len + 3] roundings of the
      linearly weighted mean of the window; it is a number whenever the values
      of the window are numbers up to [2^900]. *)
  Theorem C122_wma len (c : ctx f64) xs : (1 <= len)%nat -> (Z.of_nat len <= 2 ^ 17)%Z -> c_index c = 0%nat ->
    exists os, run_new (wma_new len) wma_step c xs = Ok os /\
    forall i y, nth_error os i = Some (Some y) ->
    exists w, window len (firstn (S i) xs) = Some w /\
      (is_finite y = true -> Forall (fun x => is_finite x = true) w /\
        average_near (len + 3) (len + 1) y (Rwmean (map B2R w)) (Rwmean (map Rabs (map B2R w)))) /\
      (Forall moderate w -> is_finite y = true).
  Proof.
    intros L B Z0. rewrite wma_run by exact L. rewrite Z0. eexists; split; [reflexivity|]. intros i y N.
    destruct (nth_each _ _ _ _ N) as [Hi E]. clear N. symmetry in E. unfold wma_out in E. rewrite Nat.add_0_l in E. unfold window.
    destruct (Nat.leb_spec len (length (firstn (S i) xs))) as [LL|]; [|discriminate E].
    destruct (all_some (lastn len (firstn (S i) xs))) as [w|] eqn:W; [|discriminate E]. cbn [option_map] in E. apply some_eq in E.
    pose proof (all_some_length _ _ W) as LW. rewrite length_lastn in LW. assert (LV : length w = len) by lia.
    exists w. split; [reflexivity|]. split; intros H.
    - apply (wma_value_near len w y L B LV E H).
    - rewrite <- E. apply (wma_value_finite len w L B LV H).
  Qed.

  (** ** Swma *)
  Definition sixth (k : Z) : f64 := fdiv (fZ k) (fZ 6).
  Lemma sixth_near k : (k = 1 \/ k = 2)%Z -> is_finite (sixth k) = true /\ Rabs (B2R (sixth k) - IZR k / 6) <= u64 * (IZR k / 6).
  Proof.
    intros K. destruct (f64_ofZ_correct k) as [V1 F1]; [lia|]. destruct (f64_ofZ_correct 6) as [V6 F6]; [cbn; lia|].
    assert (IK : IZR k = 1 \/ IZR k = 2) by (destruct K as [-> | ->]; auto).
    pose proof (Bdiv_correct 53 1024 _ _ mode_NE (f64_ofZ k) (f64_ofZ 6) ltac:(rewrite V6; lra)) as C.
    rewrite V1, V6 in C.
    assert (RB : Rabs (IZR k / 6) <= 1) by (rewrite Rabs_pos_eq; destruct IK as [-> | ->]; lra).
    pose proof (rounded_bound 1 0 (IZR k / 6) ltac:(cbn; lia) ltac:(lia)) as RR. cbn [INR bpow] in RR. rewrite Rmult_1_r in RR. specialize (RR RB).
    rewrite Rlt_bool_true in C by (eapply Rle_lt_trans; [exact RR|]; apply (bpow_lt radix2 0 1024); lia).
    destruct C as (C & F & _). split; [change (sixth k) with (Bdiv mode_NE (f64_ofZ k) (f64_ofZ 6)); rewrite F; exact F1|].
    change (sixth k) with (Bdiv mode_NE (f64_ofZ k) (f64_ofZ 6)). rewrite C.
    rewrite <- (Rabs_pos_eq (IZR k / 6)) at 3 by (destruct IK as [-> | ->]; lra).
    (* no underflow near one sixth *)
    assert (RE : Rabs (round radix2 fexp64 (round_mode mode_NE) (IZR k / 6) - IZR k / 6) <= / 2 * bpow radix2 (-53 + 1) * Rabs (IZR k / 6)).
    { change fexp64 with (FLT_exp (-1074) 53). change (-53 + 1)%Z with (- (53) + 1)%Z. apply (relative_error_N_FLT radix2 (-1074) 53 eq_refl (fun x => negb (Z.even x))).
      rewrite Rabs_pos_eq by (destruct IK as [-> | ->]; lra). apply Rle_trans with (bpow radix2 (-3)); [apply bpow_le; lia|].
      cbn. destruct IK as [-> | ->]; lra. }
    eapply Rle_trans; [exact RE|]. apply Rmult_le_compat_r; [apply Rabs_pos|]. unfold u64. rewrite bpow_plus. cbn [bpow]. change (Z.pow_pos radix2 1) with 2%Z. lra.
  Qed.
  Lemma sixth_product k (x : f64) : (k = 1 \/ k = 2)%Z -> is_finite (fmul x (sixth k)) = true ->
    is_finite x = true /\ Rabs (B2R (fmul x (sixth k)) - B2R x * (IZR k / 6)) <= grown 2 * Rabs (B2R x * (IZR k / 6)) + (1 + grown 2) * eta64.
  Proof.
    intros K F. destruct (sixth_near k K) as [F6 E6]. destruct (mult_rel x (sixth k) F) as (Fx & _ & E). split; [exact Fx|].
    change (fmul x (sixth k)) with (Bmult mode_NE x (sixth k)). set (p := B2R (Bmult mode_NE x (sixth k))) in *. set (s := B2R (sixth k)) in *. set (v := B2R x) in *.
    set (t := IZR k / 6) in *. assert (T0 : 0 <= t) by (unfold t; destruct K as [-> | ->]; lra).
    pose proof u64_pos as U. pose proof eta64_pos as H. assert (G2 : grown 2 = 2 * u64 + u64 * u64) by (unfold grown; cbn [pow]; ring).
    assert (D1 : Rabs (v * s - v * t) <= u64 * Rabs (v * t)).
    { replace (v * s - v * t) with (v * (s - t)) by ring. rewrite !Rabs_mult, (Rabs_pos_eq t) by exact T0. pose proof (Rabs_pos v). nra. }
    assert (D2 : Rabs (v * s) <= (1 + u64) * Rabs (v * t)).
    { replace (v * s) with ((v * s - v * t) + v * t) by ring. eapply Rle_trans; [apply Rabs_triang|]. lra. }
    replace (p - v * t) with ((p - v * s) + (v * s - v * t)) by ring. eapply Rle_trans; [apply Rabs_triang|]. rewrite G2.
    assert (u64 * Rabs (v * s) <= u64 * ((1 + u64) * Rabs (v * t))) by (apply Rmult_le_compat_l; lra).
    assert (0 <= (2 * u64 + u64 * u64) * eta64) by (apply Rmult_le_pos; nra). lra.
  Qed.
  Definition sw_terms (a b d e : f64) : list (f64 * Z) := [(a, 1%Z); (b, 2%Z); (d, 2%Z); (e, 1%Z)].
  Lemma swma_total (a b d e : f64) : swma_mean [a; b; d; e] = total (map (fun p => fmul (fst p) (sixth (snd p))) (sw_terms a b d e)).
  Proof. reflexivity. Qed.
  Lemma sw_terms_weight a b d e p : In p (sw_terms a b d e) -> (snd p = 1 \/ snd p = 2)%Z /\ In (fst p) [a; b; d; e].
  Proof. cbn. intros [<-|[<-|[<-|[<-|[]]]]]; cbn; auto 8. Qed.
  Lemma swma_value_near (a b d e : f64) : is_finite (swma_mean [a; b; d; e]) = true ->
    Forall (fun x => is_finite x = true) [a; b; d; e] /\
    average_near 6 4 (swma_mean [a; b; d; e]) (Rswmean (map B2R [a; b; d; e])) (Rswmean (map Rabs (map B2R [a; b; d; e]))).
  Proof.
    rewrite swma_total. intros F. set (ts := sw_terms a b d e) in *.
    destruct (C119_sum log10 _ F) as [FA _]. rewrite Forall_map in FA.
    destruct (sum_of_near log10 ts (fun p => fmul (fst p) (sixth (snd p))) (fun p => B2R (fst p) * (IZR (snd p) / 6)) F) as [_ NS].
    { intros p I Fp. apply sixth_product; [apply (sw_terms_weight a b d e p I)|exact Fp]. }
    split.
    - unfold ts, sw_terms in FA. repeat match goal with H : Forall _ (_ :: _) |- _ => inversion H; clear H; subst end. cbn [fst snd] in *.
      repeat (constructor; [match goal with |- is_finite ?x = true => match goal with H : is_finite (fmul x _) = true |- _ => refine (proj1 (sixth_product _ x _ H)); auto end end|]). constructor.
    - unfold average_near. change (length ts + 2)%nat with 6%nat in NS. change (length ts) with 4%nat in NS.
      refine (Rle_trans _ _ _ _ (Rle_trans _ _ _ NS _)).
      + right. f_equal. f_equal. unfold ts, sw_terms, Rplus_all, Rswmean. cbn [map fst snd fold_right]. lra.
      + right. f_equal. f_equal. unfold ts, sw_terms, Rplus_all, Rswmean. cbn [map fst snd fold_right]. rewrite !Rabs_mult.
        rewrite (Rabs_pos_eq (1 / 6)), (Rabs_pos_eq (2 / 6)) by lra. lra.
  Qed.
  Lemma swma_value_finite (a b d e : f64) : Forall moderate [a; b; d; e] -> is_finite (swma_mean [a; b; d; e]) = true.
  Proof.
    intros M. rewrite swma_total. rewrite Forall_forall in M. apply (total_bounded 900); [lia|cbn; lia|]. rewrite Forall_map. apply Forall_forall.
    intros p I. destruct (sw_terms_weight a b d e p I) as [K IN]. destruct (M _ IN) as [Fx Bx]. destruct (sixth_near _ K) as [F6 E6].
    pose proof (mult_bounded 1 900 (fst p) (sixth (snd p)) Fx F6 ltac:(cbn; lia) ltac:(lia)) as Q. cbn [INR] in Q. rewrite Rmult_1_l in Q. apply Q.
    refine (Rle_trans _ _ _ (Req_le _ _ (Rabs_mult _ _)) _). apply Rle_trans with (bpow radix2 900 * 1); [|lra].
    apply Rmult_le_compat; [apply Rabs_pos|apply Rabs_pos|exact Bx|].
    assert (T : 0 <= IZR (snd p) / 6 <= / 2) by (destruct K as [-> | ->]; lra).
    assert (U : u64 <= / 2) by (apply (bpow_le radix2 (-53) (-1)); lia). pose proof u64_pos.
    assert (Rabs (B2R (sixth (snd p))) <= u64 * (IZR (snd p) / 6) + IZR (snd p) / 6); [|nra].
    replace (B2R (sixth (snd p))) with ((B2R (sixth (snd p)) - IZR (snd p) / 6) + IZR (snd p) / 6) by ring.
    eapply Rle_trans; [apply Rabs_triang|]. rewrite (Rabs_pos_eq (IZR (snd p) / 6)) by apply T. lra.
  Qed.
  Theorem C122_swma (c : ctx f64) xs : c_index c = 0%nat ->
    exists os, run_new swma_new swma_step c xs = Ok os /\
    forall i y, nth_error os i = Some (Some y) ->
    exists w, window 4 (firstn (S i) xs) = Some w /\
      (is_finite y = true -> Forall (fun x => is_finite x = true) w /\
        average_near 6 4 y (Rswmean (map B2R w)) (Rswmean (map Rabs (map B2R w)))) /\
      (Forall moderate w -> is_finite y = true).
  Proof.
    intros Z0. rewrite swma_run. rewrite Z0. eexists; split; [reflexivity|]. intros i y N.
    destruct (nth_each _ _ _ _ N) as [Hi E]. clear N. symmetry in E. unfold swma_out in E. rewrite Nat.add_0_l in E. unfold window.
    destruct (Nat.leb_spec 4 (length (firstn (S i) xs))) as [LL|]; [|discriminate E].
    destruct (all_some (lastn 4 (firstn (S i) xs))) as [w|] eqn:W; [|discriminate E]. cbn [option_map] in E. apply some_eq in E.
    pose proof (all_some_length _ _ W) as LW. rewrite length_lastn in LW. assert (LV : length w = 4%nat) by lia.
    exists w. split; [reflexivity|]. do 4 (destruct w as [|? w]; [discriminate LV|]). destruct w; [|discriminate LV].
    split; intros H.
    - rewrite <- E in *. apply swma_value_near. exact H.
    - rewrite <- E. apply swma_value_finite, H.
  Qed.

  (** In plain terms: when the values of the window lie between [lo] and [hi]
      and are at most [M] in magnitude, an output that is a number misses the
      range by at most [len + 3] times [2^-52] of [M] (and an underflow). *)
  Lemma near_range m k y r a lo hi M : average_near m k y r a -> (Z.of_nat m <= 2 ^ 52)%Z -> 0 <= a <= M -> lo <= r <= hi ->
    lo - (2 * u64 * INR m * M + 2 * INR k * eta64) <= B2R y <= hi + (2 * u64 * INR m * M + 2 * INR k * eta64).
  Proof.
    intros N B H RR. assert (Q : Rabs (B2R y - r) <= 2 * u64 * INR m * M + 2 * INR k * eta64).
    { eapply Rle_trans; [exact N|]. pose proof (grown_linear m B) as G. pose proof (grown_nonneg m) as G0. pose proof u64_pos. pose proof eta64_pos.
      assert (MU : 2 * u64 * INR m <= 1).
      { unfold u64. rewrite INR_IZR_INZ. apply Rle_trans with (2 * bpow radix2 (-53) * IZR (2 ^ 52)).
        - apply Rmult_le_compat_l; [|apply IZR_le, B]. apply Rmult_le_pos; [lra|apply bpow_ge_0].
        - change (IZR (2 ^ 52)) with (bpow radix2 52). rewrite Rmult_assoc, <- bpow_plus. change (-53 + 52)%Z with (-1)%Z. cbn. lra. }
      pose proof (pos_INR k). apply Rplus_le_compat.
      + apply Rle_trans with (grown m * M); [apply Rmult_le_compat_l; lra|apply Rmult_le_compat_r; lra].
      + assert (0 <= INR k * eta64) by (apply Rmult_le_pos; lra). nra. }
    apply Rabs_le_inv in Q. lra.
  Qed.
  Theorem C122_wma_range len (c : ctx f64) xs os i y lo hi M : (1 <= len)%nat -> (Z.of_nat len <= 2 ^ 17)%Z -> c_index c = 0%nat ->
    run_new (wma_new len) wma_step c xs = Ok os -> nth_error os i = Some (Some y) -> is_finite y = true ->
    (forall x, In (Some x) (lastn len (firstn (S i) xs)) -> lo <= B2R x <= hi /\ Rabs (B2R x) <= M) ->
    lo - (2 * u64 * INR (len + 3) * M + 2 * INR (len + 1) * eta64) <= B2R y <= hi + (2 * u64 * INR (len + 3) * M + 2 * INR (len + 1) * eta64).
  Proof.
    intros L B Z0 E N F H. destruct (C122_wma len c xs L B Z0) as (os' & E' & K). rewrite E in E'. injection E' as <-.
    destruct (K i y N) as (w & W & A & _). destruct (A F) as [_ AN]. clear K A.
    assert (NN : w <> []) by (eapply window_nonnil; eassumption). unfold window in W.
    destruct (Nat.leb_spec len (length (firstn (S i) xs))); [|discriminate W]. apply all_some_Some in W. rewrite W in H.
    assert (HW : forall x, In x w -> lo <= B2R x <= hi /\ Rabs (B2R x) <= M) by (intros x I; apply H, in_map, I).
    eapply near_range; [exact AN|lia| |].
    - apply (Rwmean_in 0 M (map Rabs (map B2R w))); [destruct w; [congruence|discriminate]|].
      unfold all_in. rewrite !Forall_map. apply Forall_forall. intros x I. split; [apply Rabs_pos|apply HW, I].
    - apply (Rwmean_in lo hi (map B2R w)); [destruct w; [congruence|discriminate]|].
      unfold all_in. rewrite Forall_map. apply Forall_forall. intros x I. apply HW, I.
  Qed.

  (** An infinity and a NaN, then the window 1, 2, 4: the average is a number
      within 6 roundings and 4 underflows of 17/6 (Sma never recovers, C70). *)
  Definition inputs122 : list (option f64) := [Some (B754_infinity false); Some B754_nan; Some (f64_ofZ 1); Some (f64_ofZ 2); Some (f64_ofZ 4)].
  Example C122_ex (c : ctx f64) : c_index c = 0%nat -> exists os y, run_new (wma_new 3) wma_step c inputs122 = Ok os /\
    nth_error os 4 = Some (Some y) /\ is_finite y = true /\ Rabs (B2R y - 17 / 6) <= grown 6 * (17 / 6) + (1 + grown 6) * (4 * eta64).
  Proof.
    intros Z0. destruct (C122_wma 3 c inputs122 ltac:(lia) ltac:(cbn; lia) Z0) as (os & E & H).
    destruct (@C14_wma_defined f64 N122 3 c inputs122 ltac:(lia) Z0) as (os' & E' & D). rewrite E in E'. injection E' as <-.
    assert (Y : exists y, nth_error os 4 = Some (Some y)).
    { exact (some_at _ _ 4 D eq_refl). }
    destruct Y as [y Y]. exists os, y. split; [exact E|]. split; [exact Y|]. destruct (H 4%nat y Y) as (w & W & A & M).
    assert (EW : w = [f64_ofZ 1; f64_ofZ 2; f64_ofZ 4]) by (refine (some_eq _ _ (eq_trans (eq_sym W) _)); reflexivity). clear W.
    destruct (f64_ofZ_correct 1) as [V1 F1]; [cbn; lia|]. destruct (f64_ofZ_correct 2) as [V2 F2]; [cbn; lia|]. destruct (f64_ofZ_correct 4) as [V4 F4]; [cbn; lia|].
    assert (P : IZR 4 <= bpow radix2 900) by (apply Rle_trans with (bpow radix2 2); [cbn; lra|apply bpow_le; lia]).
    assert (F : is_finite y = true).
    { apply M. rewrite EW. apply Forall_cons; [|apply Forall_cons; [|apply Forall_cons; [|apply Forall_nil]]]; (split; [assumption|]); [rewrite V1|rewrite V2|rewrite V4]; rewrite Rabs_pos_eq by lra; lra. }
    split; [exact F|]. destruct (A F) as [_ N]. 
    assert (R1 : Rwmean (map B2R w) = 17 / 6) by (rewrite EW; unfold Rwmean, triangular; cbn [map Rweighted length INR]; rewrite V1, V2, V4; lra).
    assert (R2 : Rwmean (map Rabs (map B2R w)) = 17 / 6).
    { rewrite EW; unfold Rwmean, triangular; cbn [map Rweighted length INR]; rewrite V1, V2, V4. rewrite !Rabs_pos_eq by lra. lra. }
    unfold average_near in N. rewrite R1, R2 in N. replace 4 with (INR 4) by (cbn; lra). exact N.
  Qed.
End C122.
Print Assumptions C122_wma.
Print Assumptions C122_swma.
Print Assumptions C122_wma_range.
Print Assumptions C122_ex.
