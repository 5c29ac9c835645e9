(** * PropEma2 (C125, C132): exponential averages of positive values, and the
    oscillators made of them, bit for bit in f64 when every value is multiplied
    by [2^k]. *)
From Coq Require Import Reals Lra Lia Psatz.
From Flocq Require Import Core IEEE754.BinarySingleNaN Mult_error.
From Verif Require Import PropWhole.
From Verif Require Import PropContent2 PropContent4.
From Verif Require Import PContent1 PContent2 PContent3 PExact3.
From Verif Require Import Inst PropTick PIeee2 PRound PropRound PropDrift PropRatio PropSplit PropSplit2 PropVolume PropVolF.
Local Open Scope R_scope.
Notation format64 := (generic_format radix2 fexp64).

Lemma rn_low lo r : format64 lo -> lo <= r -> lo <= rn r.
Proof. intros G H. change fexp64 with (FLT_exp (-1074) 53) in *. apply round_ge_generic; auto with typeclass_instances. Qed.
Lemma rn_high hi r : format64 hi -> r <= hi -> rn r <= hi.
Proof. intros G H. change fexp64 with (FLT_exp (-1074) 53) in *. apply round_le_generic; auto with typeclass_instances. Qed.
Lemma fmt_bpow e : (-1074 <= e)%Z -> format64 (bpow radix2 e).
Proof. intros H. change fexp64 with (FLT_exp (-1074) 53). apply generic_format_bpow. unfold FLT_exp. lia. Qed.
(** [2^e - 2^(e-d)], a number of at most 53 bits. *)
Lemma fmt_less e d : (0 <= d <= 53)%Z -> (-1074 <= e - d)%Z -> format64 (bpow radix2 e - bpow radix2 (e - d)).
Proof.
  intros D E. change fexp64 with (FLT_exp (-1074) 53). apply generic_format_FLT. exists (Float radix2 (2 ^ d - 1) (e - d)); cbn [Fnum Fexp].
  - unfold F2R. cbn [Fnum Fexp]. assert (Q : IZR (2 ^ d) = bpow radix2 d) by (apply (IZR_Zpower radix2 d); lia). rewrite minus_IZR, Q. rewrite Rmult_minus_distr_r, <- bpow_plus, Rmult_1_l. do 2 f_equal. lia.
  - assert (1 <= 2 ^ d)%Z by (pose proof (Z.pow_pos_nonneg 2 d); lia). assert (2 ^ d <= 2 ^ 53)%Z by (apply Z.pow_le_mono_r; lia). rewrite Z.abs_eq by lia. change (radix2 ^ 53)%Z with (2 ^ 53)%Z. lia.
  - exact E.
Qed.

(** Multiplied exactly by [2^k], from [lo] up, and at most [hi] after. *)
Definition mid (k : Z) (lo hi : R) (x x' : f64) : Prop := ex k x x' /\ lo <= B2R x /\ B2R x * bpow radix2 k <= hi.
Lemma ex_times2 k (x y : f64) : (0 <= k)%Z -> ex k x y -> y = times2 k x.
Proof.
  intros K ([F F'] & V & S). pose proof (Bldexp_correct 53 1024 _ _ mode_NE x k) as C.
  assert (G : rn (B2R x * bpow radix2 k) = B2R x * bpow radix2 k).
  { apply round_generic; [apply valid_rnd_round_mode|]. change fexp64 with (FLT_exp (-1074) 53). apply mult_bpow_pos_exact_FLT; [apply (generic_format_B2R 53 1024)|exact K]. }
  rewrite G, <- V in C. rewrite Rlt_bool_true in C by apply (abs_B2R_lt_emax 53 1024 y). destruct C as (C1 & C2 & C3).
  apply times2_same; [exact F'|exact (eq_trans C2 F)|exact (eq_sym C1)|exact (eq_trans S (eq_sym C3))].
Qed.
(** A weight times a positive value. *)
Lemma mid_mul k (w x x' : f64) lo hi : (0 <= k)%Z -> is_finite w = true -> 0 <= B2R w -> mid k lo hi x x' ->
  bpow radix2 (-1022) <= B2R w * lo -> 0 <= lo -> B2R w * hi <= bpow radix2 1000 ->
  forall lo' hi', format64 lo' -> format64 hi' -> lo' <= B2R w * lo -> B2R w * hi <= hi' -> hi' <= bpow radix2 1000 ->
  mid k lo' hi' (Bmult mode_NE w x) (Bmult mode_NE w x').
Proof.
  intros K Fw W (([Fx Fx'] & Vx & Sx) & Lx & Hx) Low L0 High lo' hi' G' H' Lo Hi Top.
  pose proof (bpow_gt_0 radix2 k) as P. pose proof (one_le_bpow k K) as K1. set (r := B2R w * B2R x).
  assert (R0 : B2R w * lo <= r) by (unfold r; apply Rmult_le_compat_l; assumption).
  assert (RH : r * bpow radix2 k <= B2R w * hi) by (unfold r; rewrite Rmult_assoc; apply Rmult_le_compat_l; assumption).
  assert (B0 : 0 < bpow radix2 (-1022)) by apply bpow_gt_0.
  assert (E : rn (r * bpow radix2 k) = rn r * bpow radix2 k) by (apply rn_scale; [exact K|left; rewrite Rabs_pos_eq; lra]).
  assert (Lr : lo' <= rn r) by (apply rn_low; [exact G'|lra]).
  assert (Hr : rn (r * bpow radix2 k) <= hi') by (apply rn_high; [exact H'|lra]).
  assert (Z0 : 0 <= rn r) by (apply rn_low; [apply generic_format_0|lra]).
  assert (Big : bpow radix2 1000 < bpow radix2 1024) by (apply bpow_lt; lia).
  assert (N : 0 <= rn (r * bpow radix2 k)) by (rewrite E; apply Rmult_le_pos; lra).
  assert (Hr1 : rn r <= hi') by (rewrite E in Hr; nra).
  pose proof (Bmult_correct 53 1024 _ _ mode_NE w x) as C. rewrite Rlt_bool_true in C by (fold r; rewrite Rabs_pos_eq; lra). destruct C as (C1 & C2 & C3).
  pose proof (Bmult_correct 53 1024 _ _ mode_NE w x') as D. rewrite Vx, <- Rmult_assoc in D. fold r in D. rewrite Rlt_bool_true in D by (rewrite Rabs_pos_eq; lra). destruct D as (D1 & D2 & D3).
  rewrite Fw, Fx in C2. rewrite Fw, Fx' in D2. cbn [andb] in C2, D2.
  assert (N1 : is_nan (Bmult mode_NE w x) = false) by (revert C2; generalize (Bmult mode_NE w x); intros [| | |] Q; try discriminate Q; reflexivity).
  assert (N2 : is_nan (Bmult mode_NE w x') = false) by (revert D2; generalize (Bmult mode_NE w x'); intros [| | |] Q; try discriminate Q; reflexivity).
  specialize (C3 N1). specialize (D3 N2). rewrite Sx in D3. fold r in C1.
  split; [split; [exact (conj C2 D2)|split; [|exact (eq_trans D3 (eq_sym C3))]]|].
  - refine (eq_trans D1 (eq_trans E _)). exact (f_equal (fun v => v * bpow radix2 k) (eq_sym C1)).
  - rewrite C1. split; [exact Lr|]. rewrite <- E. exact Hr.
Qed.
(** The sum of two such values. *)
Lemma mid_add k (x y x' y' : f64) lo hi l2 h2 lo' hi' : (0 <= k)%Z -> mid k lo hi x x' -> mid k l2 h2 y y' -> 0 <= lo -> 0 <= l2 ->
  format64 lo' -> format64 hi' -> lo' <= lo + l2 -> hi + h2 <= hi' -> hi' <= bpow radix2 1000 ->
  mid k lo' hi' (Bplus mode_NE x y) (Bplus mode_NE x' y').
Proof.
  intros K (([Fx Fx'] & Vx & Sx) & Lx & Hx) (([Fy Fy'] & Vy & Sy) & Ly & Hy) L0 L1 G' H' Lo Hi Top.
  pose proof (bpow_gt_0 radix2 k) as P. pose proof (one_le_bpow k K) as K1. set (r := B2R x + B2R y).
  assert (E : rn (r * bpow radix2 k) = rn r * bpow radix2 k).
  { apply rn_scale; [exact K|right]. destruct (f64_whole x) as [a A], (f64_whole y) as [b B]. exists (a + b)%Z. unfold r. rewrite A, B, plus_IZR. ring. }
  assert (RH : r * bpow radix2 k <= hi') by (unfold r; rewrite Rmult_plus_distr_r; lra).
  assert (Lr : lo' <= rn r) by (apply rn_low; [exact G'|unfold r; lra]).
  assert (Hr : rn (r * bpow radix2 k) <= hi') by (apply rn_high; assumption).
  assert (Z0 : 0 <= rn r) by (apply rn_low; [apply generic_format_0|unfold r; lra]).
  assert (Big : bpow radix2 1000 < bpow radix2 1024) by (apply bpow_lt; lia).
  assert (N : 0 <= rn (r * bpow radix2 k)) by (rewrite E; apply Rmult_le_pos; lra).
  assert (Hr1 : rn r <= hi') by (rewrite E in Hr; nra).
  pose proof (Bplus_correct 53 1024 _ _ mode_NE x y Fx Fy) as C. rewrite Rlt_bool_true in C by (fold r; rewrite Rabs_pos_eq; lra). destruct C as (C1 & C2 & C3).
  pose proof (Bplus_correct 53 1024 _ _ mode_NE x' y' Fx' Fy') as D. rewrite Vx, Vy, <- Rmult_plus_distr_r, Rcompare_scale, Sx, Sy in D. fold r in D.
  rewrite Rlt_bool_true in D by (rewrite Rabs_pos_eq; lra). destruct D as (D1 & D2 & D3). fold r in C1.
  split; [split; [exact (conj C2 D2)|split; [|exact (eq_trans D3 (eq_sym C3))]]|].
  - refine (eq_trans D1 (eq_trans E _)). exact (f_equal (fun v => v * bpow radix2 k) (eq_sym C1)).
  - rewrite C1. split; [exact Lr|]. rewrite <- E. exact Hr.
Qed.

(** A positive price or volume of ordinary size before and after. *)
Definition ordinary (k : Z) (x : f64) : Prop := is_finite x = true /\ bpow radix2 (-448) <= B2R x /\ B2R x * bpow radix2 k <= bpow radix2 900.
Lemma ordinary_usable k x : ordinary k x -> usable k x.
Proof.
  intros (F & L & H). pose proof (bpow_gt_0 radix2 (-448)) as P. split; [exact F|]. rewrite Rabs_pos_eq by lra. split; [right; exact L|exact H].
Qed.
Lemma ordinary_mid k x : (0 <= k)%Z -> ordinary k x -> mid k (bpow radix2 (-448)) (bpow radix2 900) x (times2 k x).
Proof.
  intros K H. pose proof (usable_room k x (ordinary_usable k x H)) as U. destruct H as (F & L & B). split; [|exact (conj L B)].
  apply (sc_ex k 1); [exact K|unfold few; cbn; lia|exact (conj U eq_refl)].
Qed.

(** The two weights of an exponential average. *)
Definition weights (a b : f64) : Prop := is_finite a = true /\ is_finite b = true /\ bpow radix2 (-33) <= B2R a <= 3 / 4 /\ 1 / 4 <= B2R b <= 1 - bpow radix2 (-33).
Notation P500 := (bpow radix2 (-500)).
Notation P980 := (bpow radix2 980).
Lemma mid_step k (a b v v' p p' : f64) : (0 <= k)%Z -> weights a b -> mid k (bpow radix2 (-448)) (bpow radix2 900) v v' -> mid k P500 P980 p p' ->
  mid k P500 P980 (Bplus mode_NE (Bmult mode_NE a v) (Bmult mode_NE b p)) (Bplus mode_NE (Bmult mode_NE a v') (Bmult mode_NE b p')).
Proof.
  intros K (Fa & Fb & A & B) V P.
  assert (S33 : 0 < bpow radix2 (-33)) by apply bpow_gt_0. assert (S448 : 0 < bpow radix2 (-448)) by apply bpow_gt_0. assert (S500 : 0 < P500) by apply bpow_gt_0. assert (S900 : 0 < bpow radix2 900) by apply bpow_gt_0. assert (S980 : 0 < P980) by apply bpow_gt_0.
  assert (T : P980 <= bpow radix2 1000) by (apply bpow_le; lia). assert (T9 : bpow radix2 900 <= bpow radix2 1000) by (apply bpow_le; lia).
  assert (E1 : bpow radix2 (-481) = bpow radix2 (-33) * bpow radix2 (-448)) by (rewrite <- bpow_plus; reflexivity).
  assert (E2 : P500 <= bpow radix2 (-481)) by (apply bpow_le; lia).
  assert (E3 : bpow radix2 (-502) = 1 / 4 * P500) by (change (-502)%Z with (-2 + -500)%Z; rewrite bpow_plus; cbn; lra).
  assert (E4 : bpow radix2 947 = bpow radix2 (-33) * P980) by (rewrite <- bpow_plus; reflexivity).
  assert (E5 : bpow radix2 900 <= bpow radix2 947) by (apply bpow_le; lia).
  assert (E6 : bpow radix2 (-1022) <= bpow radix2 (-502)) by (apply bpow_le; lia).
  assert (E7 : bpow radix2 (-502) <= P500) by (apply bpow_le; lia).
  assert (X : mid k (bpow radix2 (-481)) (bpow radix2 900) (Bmult mode_NE a v) (Bmult mode_NE a v')).
  { apply (mid_mul k a v v' _ _ K Fa ltac:(lra) V); try (apply fmt_bpow; lia); try nra. }
  assert (Y : mid k (bpow radix2 (-502)) (P980 - bpow radix2 947) (Bmult mode_NE b p) (Bmult mode_NE b p')).
  { apply (mid_mul k b p p' _ _ K Fb ltac:(lra) P); try (apply fmt_bpow; lia); try (change 947%Z with (980 - 33)%Z; apply fmt_less; lia); try nra. }
  apply (mid_add k _ _ _ _ _ _ _ _ _ _ K X Y); try (apply fmt_bpow; lia); try lra.
Qed.

Section Ema2.
  Variable log10 : f64 -> f64.
  #[local] Instance N125e : Num f64 := IEEE log10.
  #[local] Instance O125e : OrdNum f64 := IEEEOrd log10.
  Variable k : Z.
  Hypothesis K : (0 <= k)%Z.
  Notation T := (scaled k).
  Notation t2 := (times2 k).

  (** The weight [p / q] of f64 numbers [p], [q], and its complement. *)
  Lemma weights_of (x y : f64) : is_finite x = true -> is_finite y = true -> bpow radix2 (-33) <= B2R x / B2R y <= 3 / 4 -> B2R y <> 0 ->
    weights (Bdiv mode_NE x y) (Bminus mode_NE (f64_ofZ 1) (Bdiv mode_NE x y)).
  Proof.
    intros Fx Fy W Y. assert (S33 : 0 < bpow radix2 (-33)) by apply bpow_gt_0.
    assert (F34 : format64 (3 / 4)). { change fexp64 with (FLT_exp (-1074) 53). apply generic_format_FLT. exists (Float radix2 3 (-2)); [unfold F2R; cbn; lra|cbn; lia|cbn; lia]. }
    assert (F14 : format64 (1 / 4)). { replace (1 / 4) with (bpow radix2 (-2)) by (cbn; lra). apply fmt_bpow. lia. }
    assert (FC : format64 (1 - bpow radix2 (-33))). { change 1 with (bpow radix2 0). change (-33)%Z with (0 - 33)%Z. apply fmt_less; lia. }
    assert (A1 : bpow radix2 (-33) <= rn (B2R x / B2R y)) by (apply rn_low; [apply fmt_bpow; lia|apply W]).
    assert (A2 : rn (B2R x / B2R y) <= 3 / 4) by (apply rn_high; [exact F34|apply W]).
    assert (Big : 1 < bpow radix2 1024) by (change 1 with (bpow radix2 0); apply bpow_lt; lia).
    pose proof (Bdiv_correct 53 1024 _ _ mode_NE x y Y) as C. rewrite Rlt_bool_true in C by (rewrite Rabs_pos_eq; lra). destruct C as (C1 & C2 & _). rewrite Fx in C2.
    set (a := Bdiv mode_NE x y) in *. change (is_finite a = true) in C2. clearbody a. rewrite <- C1 in A1, A2.
    destruct (f64_ofZ_correct 1 ltac:(lia)) as [V1 F1].
    assert (B1 : 1 / 4 <= rn (1 - B2R a)) by (apply rn_low; [exact F14|lra]). assert (B2 : rn (1 - B2R a) <= 1 - bpow radix2 (-33)) by (apply rn_high; [exact FC|lra]).
    pose proof (Bminus_correct 53 1024 _ _ mode_NE (f64_ofZ 1) a F1 C2) as D. rewrite V1 in D. rewrite Rlt_bool_true in D by (rewrite Rabs_pos_eq; lra). destruct D as (D1 & D2 & _).
    split; [exact C2|]. split; [exact D2|]. split; [lra|]. rewrite D1. lra.
  Qed.
  Lemma over_33 q : 1 <= q <= 2 ^ 33 -> bpow radix2 (-33) <= / q.
  Proof. intros Q. change (-33)%Z with (- (33))%Z. rewrite bpow_opp. apply Rinv_le_contravar; [lra|]. replace (bpow radix2 33) with (2 ^ 33) by (cbn; lra). lra. Qed.
  Lemma ema_weights len : (2 <= len)%nat -> (Z.of_nat len <= 2 ^ 32)%Z -> weights (ema_alpha_of len) (fZ 1 - ema_alpha_of len)%num.
  Proof.
    intros L L'. destruct (int_plus_1 log10 len L') as [Fy Vy]. pose proof (IL32 _ L') as IL. assert (P : 2 <= INR len) by (apply (le_INR 2); exact L).
    destruct (f64_ofZ_correct 2 ltac:(lia)) as [V2 F2].
    assert (W : forall y : f64, is_finite y = true -> B2R y = INR len + 1 -> weights (Bdiv mode_NE (f64_ofZ 2) y) (Bminus mode_NE (f64_ofZ 1) (Bdiv mode_NE (f64_ofZ 2) y))).
    { intros y Fy' Vy'. apply (weights_of (f64_ofZ 2) y F2 Fy'); rewrite Vy', ?V2; [|lra].
      assert (I := over_33 (INR len + 1) ltac:(lra)). split.
      + unfold Rdiv. pose proof (Rinv_0_lt_compat (INR len + 1) ltac:(lra)). lra.
      + apply Rmult_le_reg_r with (INR len + 1); [lra|]. unfold Rdiv. rewrite Rmult_assoc, Rinv_l by lra. lra. }
    exact (W _ Fy Vy).
  Qed.
  Lemma rma_weights len : (2 <= len)%nat -> (Z.of_nat len <= 2 ^ 32)%Z -> weights (rma_alpha_of len) (fZ 1 - rma_alpha_of len)%num.
  Proof.
    intros L L'. destruct (f64_ofZ_correct (Z.of_nat len) ltac:(lia)) as [Vy Fy]. pose proof (IL32 _ L') as IL. assert (P : 2 <= INR len) by (apply (le_INR 2); exact L).
    rewrite <- INR_IZR_INZ in Vy. destruct (f64_ofZ_correct 1 ltac:(lia)) as [V1 F1]. apply (weights_of (f64_ofZ 1) (f64_ofZ (Z.of_nat len)) F1 Fy).
    - rewrite Vy, V1. assert (I := over_33 (INR len) ltac:(lra)). split; [unfold Rdiv; lra|].
      apply Rmult_le_reg_r with (INR len); [lra|]. unfold Rdiv. rewrite Rmult_assoc, Rinv_l by lra. lra.
    - rewrite Vy. lra.
  Qed.

  (** The first value: a plain mean. *)
  Lemma fsum2 l : few (List.length l) -> Forall (ordinary k) l ->
    sc k (List.length l) (fsum l) (fsum (map t2 l)) /\ 0 <= B2R (fsum l) /\ (l <> [] -> bpow radix2 (-448) <= B2R (fsum l)).
  Proof.
    induction l as [|x l IH] using rev_ind; intros J H.
    - split; [apply (sc_0 k _ K); exact J|]. split; [apply Rle_refl|congruence].
    - rewrite app_length in *. cbn [List.length] in *. apply Forall_app in H. destruct H as [H Hx]. inversion Hx as [|? ? X _]; subst.
      destruct (IH ltac:(apply few_le with (2 := J); lia) H) as (S & P & _). rewrite map_app. cbn [map]. unfold fsum in *. rewrite !fold_left_app. cbn [fold_left].
      assert (SX : sc k 1 x (t2 x)) by (exact (conj (usable_room k x (ordinary_usable k x X)) eq_refl)).
      assert (R : sc k (List.length l + 1) (Bplus mode_NE (fold_left fadd l (fZ 0)) x) (Bplus mode_NE (fold_left fadd (map t2 l) (fZ 0)) (t2 x))) by (apply sc_add; assumption).
      assert (Low : bpow radix2 (-448) <= B2R (Bplus mode_NE (fold_left fadd l (fZ 0)) x)).
      { assert (Fs : is_finite (fold_left fadd l (fZ 0) : f64) = true) by apply S. destruct X as (Fx & Lx & _).
        pose proof (Bplus_correct 53 1024 _ _ mode_NE _ _ Fs Fx) as C. destruct (Rlt_bool _ _) eqn:Q.
        - destruct C as (C1 & _). rewrite C1. apply rn_low; [apply fmt_bpow; lia|]. apply Rle_trans with (0 + B2R x); [rewrite Rplus_0_l; exact Lx|apply Rplus_le_compat_r; exact P].
        - exfalso. destruct C as (C1 & _). destruct R as [(FR & _) _]. destruct (Bplus mode_NE (fold_left fadd l (fZ 0)) x); cbn in C1, FR; try discriminate. }
      split; [exact R|]. split; [apply Rle_trans with (2 := Low); apply bpow_ge_0|intros _; exact Low].
  Qed.
  Lemma seed2 len l : (1 <= len)%nat -> (Z.of_nat len <= 2 ^ 32)%Z -> l <> [] -> few (List.length l) -> Forall (ordinary k) l ->
    mid k P500 P980 (fsum l / fnat len)%num (fsum (map t2 l) / fnat len)%num.
  Proof.
    intros L L' NE J H. destruct (fsum2 l J H) as (S & _ & Low). specialize (Low NE).
    assert (LF : few len) by (unfold few; lia). destruct (fnat_64 log10 len LF) as [Fn0 Vn0].
    assert (Fn : is_finite (fnat len : f64) = true) by exact Fn0. assert (Vn : B2R (fnat len : f64) = IZR (Z.of_nat len)) by exact Vn0.
    split; [apply (sc_divz_ex k (List.length l) (Z.of_nat len) (fnat len) _ _ K J Fn Vn); [unfold few in LF; lia|exact S]|].
    assert (Fs : is_finite (fsum l : f64) = true) by apply S.
    assert (Small := divz_small (fnat len) (fsum l) (Z.of_nat len) Fn Vn ltac:(lia) Fs).
    assert (S448 : 0 < bpow radix2 (-448)) by apply bpow_gt_0. pose proof (bpow_gt_0 radix2 k) as P.
    assert (B : Rabs (B2R (fsum l)) * bpow radix2 k <= P980).
    { destruct S as [(_ & _ & B) _]. apply (Rle_trans _ _ _ B). assert (J1 : INR (List.length l) <= bpow radix2 80).
      { rewrite INR_IZR_INZ. apply Rle_trans with (bpow radix2 53); [|apply bpow_le; lia]. change (bpow radix2 53) with (IZR (2 ^ 53)). apply IZR_le, J. }
      change (bpow radix2 980) with (bpow radix2 (80 + 900)). rewrite bpow_plus. apply Rmult_le_compat_r; [apply bpow_ge_0|exact J1]. }
    split.
    - assert (P1 : 1 <= INR len <= 2 ^ 33) by (pose proof (IL32 _ L'); split; [apply (le_INR 1); exact L|lra]).
      assert (I := over_33 (INR len) P1). rewrite INR_IZR_INZ in I, P1.
      assert (Q : P500 <= rn (B2R (fsum l : f64) / B2R (fnat len : f64))).
      { apply rn_low; [apply fmt_bpow; lia|]. rewrite Vn. apply Rle_trans with (bpow radix2 (-448) * bpow radix2 (-33)); [rewrite <- bpow_plus; apply bpow_le; lia|].
        unfold Rdiv. apply Rmult_le_compat; try (apply Rlt_le, bpow_gt_0); [exact Low|exact I]. }
      assert (C0 : B2R (fnat len : f64) <> 0) by (rewrite Vn; lra).
      pose proof (Bdiv_correct 53 1024 _ _ mode_NE (fsum l : f64) (fnat len : f64) C0) as C. destruct (Rlt_bool _ _) eqn:E.
      + destruct C as (C1 & _). change (P500 <= B2R (Bdiv mode_NE (fsum l : f64) (fnat len : f64))). rewrite C1. exact Q.
      + exfalso. assert (EX := sc_divz_ex k (List.length l) (Z.of_nat len) (fnat len) _ _ K J Fn Vn ltac:(unfold few in LF; lia) S). destruct EX as [[FQ _] _].
        destruct (Bdiv mode_NE (fsum l : f64) (fnat len : f64)); cbn in C, FQ; try discriminate.
    - apply Rle_trans with (2 := B). apply Rle_trans with (Rabs (B2R (Bdiv mode_NE (fsum l : f64) (fnat len : f64))) * bpow radix2 k); [apply Rmult_le_compat_r; [lra|apply Rle_abs]|apply Rmult_le_compat_r; [lra|exact Small]].
  Qed.
  (** Each later value. *)
  Lemma fold2 a l p p' : weights a (fZ 1 - a)%num -> Forall (ordinary k) l -> mid k P500 P980 p p' ->
    mid k P500 P980 (fold_left (fun e v => a * v + (fZ 1 - a) * e)%num l p) (fold_left (fun e v => a * v + (fZ 1 - a) * e)%num (map t2 l) p').
  Proof.
    intros W. revert p p'. induction l as [|v l IH]; intros p p' H M; [exact M|]. inversion H as [|? ? Hv Hl]; subst. cbn [map fold_left]. apply IH; [exact Hl|].
    exact (mid_step k a (fZ 1 - a)%num v (t2 v) p p' K W (ordinary_mid k v K Hv) M).
  Qed.
  Definition omid (o o' : option f64) : Prop := match o, o' with Some x, Some y => mid k P500 P980 x y | None, None => True | _, _ => False end.
  Lemma newest_map2 (vs : list f64) : newest (map t2 vs) = option_map t2 (newest vs).
  Proof. apply newest_map. Qed.
  Lemma val2 al len vs : (1 <= len)%nat -> (Z.of_nat len <= 2 ^ 32)%Z -> (len = 1%nat \/ weights al (fZ 1 - al)%num) -> Forall (ordinary k) vs ->
    omid (ema_val al len vs) (ema_val al len (map t2 vs)).
  Proof.
    intros L L' W H. unfold ema_val. destruct (Nat.eqb_spec len 1) as [E|N].
    - rewrite newest_map2. destruct (newest vs) as [v|] eqn:Ev; cbn [option_map omid]; [|exact I].
      assert (In v vs) by (unfold newest in Ev; exact (nth_error_In _ _ Ev)). rewrite Forall_forall in H. destruct (ordinary_mid k v K (H v H0)) as (X & Lo & Hi).
      split; [exact X|]. split; [apply Rle_trans with (2 := Lo); apply bpow_le; lia|apply (Rle_trans _ _ _ Hi); apply bpow_le; lia].
    - rewrite map_length. destruct (Nat.ltb_spec (List.length vs) len) as [Q|Q]; [exact I|]. cbn [omid]. rewrite skipn_map, firstn_map.
      assert (H1 : Forall (ordinary k) (firstn len vs)) by (rewrite <- (firstn_skipn len vs) in H; apply Forall_app in H; apply H).
      assert (H2 : Forall (ordinary k) (skipn len vs)) by (rewrite <- (firstn_skipn len vs) in H; apply Forall_app in H; apply H).
      apply fold2; [destruct W; [contradiction|assumption]|exact H2|]. apply seed2; try assumption.
      + intros Z. apply (f_equal (@List.length _)) in Z. rewrite firstn_length in Z. cbn in Z. lia.
      + rewrite firstn_length. unfold few. lia.
  Qed.

  Lemma T_warm j vs : T (warm j vs) = warm j (map t2 vs).
  Proof. unfold warm. rewrite map_app, !map_map. f_equal. induction j as [|j IH]; [reflexivity|cbn; f_equal; exact IH]. Qed.
  Lemma Forall_firstn' {A} (P : A -> Prop) l p : Forall P l -> In p (prefixes l) -> Forall P p.
  Proof. intros H Ip. apply in_prefixes in Ip. destruct Ip as (n & _ & ->). rewrite <- (firstn_skipn (S n) l) in H. apply Forall_app in H. apply H. Qed.
  Lemma omid_T o o' : omid o o' -> o' = option_map t2 o.
  Proof. destruct o, o'; cbn [omid]; try contradiction; [intros [H _]|reflexivity]. cbn [option_map]. f_equal. exact (ex_times2 k _ _ K H). Qed.
  Lemma smooth2 al len j vs : (1 <= len)%nat -> (Z.of_nat len <= 2 ^ 32)%Z -> (len = 1%nat \/ weights al (fZ 1 - al)%num) -> Forall (ordinary k) vs ->
    exists os os', ema_runs len al (warm j vs) = Ok os /\ ema_runs len al (T (warm j vs)) = Ok os' /\ Forall2 omid os os' /\ os' = T os.
  Proof.
    intros L L' W H. rewrite T_warm, !ema_runs_warm by exact L. eexists _, _. split; [reflexivity|]. split; [reflexivity|].
    assert (Q : Forall2 omid (repeat None j ++ each_prefix (ema_val al len) vs) (repeat None j ++ each_prefix (ema_val al len) (map t2 vs))).
    { apply Forall2_app; [induction j; constructor; [exact I|assumption]|]. rewrite each_prefix_of_map. unfold each_prefix.
      assert (Pre : forall p, In p (prefixes vs) -> Forall (ordinary k) p) by (intros p; apply Forall_firstn', H). revert Pre. generalize (prefixes vs). intros ps.
      induction ps as [|p ps IH]; intros Pre; cbn [map]; [constructor|]. constructor; [apply val2; try assumption; apply Pre; left; reflexivity|]. apply IH. intros q Iq. apply Pre. right. exact Iq. }
    split; [exact Q|]. revert Q. generalize (repeat None j ++ each_prefix (ema_val al len) vs) (repeat None j ++ each_prefix (ema_val al len) (map t2 vs)).
    intros a b Q. induction Q as [|x y a b R Q IH]; [reflexivity|]. cbn [map]. rewrite IH, (omid_T x y R). reflexivity.
  Qed.

  (** ** C125: exponential averages of positive values *)
  Theorem C125_ema len c j vs : (1 <= len)%nat -> (Z.of_nat len <= 2 ^ 32)%Z -> Forall (ordinary k) vs ->
    exists os, run_new (ema_new len) ema_step c (warm j vs) = Ok os /\ run_new (ema_new len) ema_step c (T (warm j vs)) = Ok (T os).
  Proof.
    intros L L' H. assert (W : len = 1%nat \/ weights (ema_alpha_of len) (fZ 1 - ema_alpha_of len)%num) by (destruct (Nat.eq_dec len 1); [left; assumption|right; apply ema_weights; [lia|exact L']]).
    destruct (smooth2 (ema_alpha_of len) len j vs L L' W H) as (os & os' & A & B & _ & E). exists os. rewrite <- E.
    change (ema_new len) with (ema_with_alpha len (ema_alpha_of len)). rewrite !ema_with_alpha_run by exact L. split; assumption.
  Qed.
  Theorem C125_rma len c j vs : (1 <= len)%nat -> (Z.of_nat len <= 2 ^ 32)%Z -> Forall (ordinary k) vs ->
    exists os, run_new (rma_new len) rma_step c (warm j vs) = Ok os /\ run_new (rma_new len) rma_step c (T (warm j vs)) = Ok (T os).
  Proof.
    intros L L' H. assert (W : len = 1%nat \/ weights (rma_alpha_of len) (fZ 1 - rma_alpha_of len)%num) by (destruct (Nat.eq_dec len 1); [left; assumption|right; apply rma_weights; [lia|exact L']]).
    destruct (smooth2 (rma_alpha_of len) len j vs L L' W H) as (os & os' & A & B & _ & E). exists os. rewrite <- E.
    rewrite !rma_run by exact L. split; assumption.
  Qed.

  (** ** Oscillators over averages of positive values *)
  Definition bounded2 (o o' : option f64) : Prop := match o, o' with Some x, Some y => ex k x y /\ Rabs (B2R x) * bpow radix2 k <= P980 | None, None => True | _, _ => False end.
  Lemma omid_bounded o o' : omid o o' -> bounded2 o o'.
  Proof. destruct o as [x|], o' as [y|]; cbn [omid bounded2]; auto. intros (E & L & H). split; [exact E|]. rewrite Rabs_pos_eq; [exact H|]. pose proof (bpow_ge_0 radix2 (-500)). lra. Qed.
  Lemma few_980 j : few j -> INR j * bpow radix2 900 <= P980.
  Proof.
    intros H. change P980 with (bpow radix2 (80 + 900)). rewrite bpow_plus. apply Rmult_le_compat_r; [apply bpow_ge_0|].
    rewrite INR_IZR_INZ. apply Rle_trans with (bpow radix2 53); [|apply bpow_le; lia]. change (bpow radix2 53) with (IZR (2 ^ 53)). apply IZR_le, H.
  Qed.
  Lemma sma_bounded len p : (1 <= len)%nat -> few len -> few (2 * List.length p) -> all_usable k p -> bounded2 (sma_out len p) (sma_out len (T p)).
  Proof.
    intros L LF J U. pose proof (sma_oex log10 k K len p L LF J U) as H. pose proof (usable_rooms k p U) as R. unfold sma_out in *. destruct (Nat.eqb_spec len 1) as [_|_].
    - assert (O := osc_newest k 1 p R). destruct (join (newest p)) as [x|], (join (newest (T p))) as [y|]; cbn [osc oex bounded2] in *; try contradiction; [|exact I]. split; [apply H|].
      destruct O as [(_ & _ & B) _]. apply (Rle_trans _ _ _ B). apply few_980. unfold few; cbn; lia.
    - rewrite window_mapf in *. destruct (window len p); cbn [option_map bounded2] in *; [|exact I]. destruct H as [H _]. split; [exact H|].
      destruct (fnat_64 log10 len LF) as [Fn Vn]. assert (JP : few (2 * 1 * List.length p)) by (apply few_le with (2 := J); lia).
      assert (SC : sc k (2 * 1 * List.length p) (rsum len p) (rsum len (T p))) by (apply (rsum2 log10 k K); assumption).
      destruct SC as [(Fr & _ & B) _]. apply Rle_trans with (Rabs (B2R (rsum len p)) * bpow radix2 k).
      + apply Rmult_le_compat_r; [apply bpow_ge_0|]. apply (divz_small (fnat len) (rsum len p) (Z.of_nat len) Fn Vn); [lia|exact Fr].
      + exact (Rle_trans _ _ _ B (few_980 _ JP)).
  Qed.
  (** Any average but the symmetrically weighted one. *)
  Lemma ma2 kind len (m : any_ma) (c c' : ctx f64) j vs : kind <> SWMA -> ma_new kind len = Ok m -> (Z.of_nat len <= 2 ^ 32)%Z -> few (2 * (j + List.length vs)) -> Forall (ordinary k) vs ->
    exists os os', run ostep c m (warm j vs) = Ok os /\ run ostep c' m (T (warm j vs)) = Ok os' /\ Forall2 bounded2 os os'.
  Proof.
    intros NK E L' J H. rewrite !(ma_boxed _ _ _ _ _ E). assert (LF : few len) by (unfold few; lia).
    assert (MID : forall a b, Forall2 omid a b -> Forall2 bounded2 a b) by (intros a b; induction 1; constructor; [apply omid_bounded; assumption|assumption]).
    destruct kind; cbn [ma_new] in E; [| | |congruence]; destruct len as [|n]; try discriminate.
    - rewrite !ma_run_sma, !sma_run by lia. eexists _, _. split; [reflexivity|]. split; [reflexivity|]. rewrite each_prefix_of_map. unfold each_prefix.
      assert (U : all_usable k (warm j vs)).
      { intros x Ix. unfold warm in Ix. apply in_app_or in Ix. destruct Ix as [Ix|Ix]; [apply repeat_spec in Ix; discriminate|]. apply in_map_iff in Ix. destruct Ix as (y & Ey & Iy).
        injection Ey as ->. apply ordinary_usable. rewrite Forall_forall in H. exact (H x Iy). }
      assert (LW : List.length (warm j vs) = (j + List.length vs)%nat) by (unfold warm; rewrite app_length, repeat_length, map_length; reflexivity).
      assert (Pre : forall p, In p (prefixes (warm j vs)) -> bounded2 (sma_out (S n) p) (sma_out (S n) (T p))).
      { intros p Ip. pose proof (prefix_len _ _ Ip). apply sma_bounded; [lia|exact LF|apply few_le with (2 := J); lia|exact (prefix_usable k _ _ U Ip)]. }
      revert Pre. generalize (prefixes (warm j vs)). intros ps. induction ps as [|p ps IH]; intros Pre; cbn [map]; [constructor|]. constructor; [apply Pre; left; reflexivity|]. apply IH. intros q Iq. apply Pre. right. exact Iq.
    - assert (W : S n = 1%nat \/ weights (ema_alpha_of (S n)) (fZ 1 - ema_alpha_of (S n))%num) by (destruct (Nat.eq_dec (S n) 1); [left; assumption|right; apply ema_weights; [lia|exact L']]).
      destruct (smooth2 (ema_alpha_of (S n)) (S n) j vs ltac:(lia) L' W H) as (os & os' & A & B & Q & _). exists os, os'.
      rewrite !ma_run_ema. change (ema_new (S n)) with (ema_with_alpha (S n) (ema_alpha_of (S n))). rewrite !ema_with_alpha_run by lia. split; [exact A|]. split; [exact B|apply MID, Q].
    - assert (W : S n = 1%nat \/ weights (rma_alpha_of (S n)) (fZ 1 - rma_alpha_of (S n))%num) by (destruct (Nat.eq_dec (S n) 1); [left; assumption|right; apply rma_weights; [lia|exact L']]).
      destruct (smooth2 (rma_alpha_of (S n)) (S n) j vs ltac:(lia) L' W H) as (os & os' & A & B & Q & _). exists os, os'.
      rewrite !ma_run_rma, !rma_run by lia. split; [exact A|]. split; [exact B|apply MID, Q].
  Qed.
  Lemma bounded_oex o o' : bounded2 o o' -> oex k o o'.
  Proof. destruct o as [x|], o' as [y|]; cbn [oex bounded2]; auto. intros [E H]. split; [exact E|]. apply (Rle_trans _ _ _ H). apply bpow_le. lia. Qed.
  Lemma zip2 (f g : option f64 -> option f64 -> option f64) os os' ps ps' : (forall a a' b b', bounded2 a a' -> bounded2 b b' -> f a' b' = g a b) ->
    Forall2 bounded2 os os' -> Forall2 bounded2 ps ps' -> zip f os' ps' = zip g os ps.
  Proof.
    intros H A. revert ps ps'. induction A as [|a a' os os' Ha A IH]; intros ps ps' B; [reflexivity|]. inversion B as [|b b' ps0 ps0' Hb Bs]; subst; [reflexivity|].
    unfold zip. cbn [combine map fst snd]. rewrite (H _ _ _ _ Ha Hb). f_equal. apply IH, Bs.
  Qed.
  Theorem C125_price_oscillator_positive n (c c' : ctx f64) src src' k1 l1 k2 l2 (s l : any_ma) j vs :
    run ostep c src (ticks n) = Ok (warm j vs) -> run ostep c' src' (ticks n) = Ok (T (warm j vs)) ->
    ma_new k1 l1 = Ok s -> ma_new k2 l2 = Ok l -> k1 <> SWMA -> k2 <> SWMA -> (Z.of_nat l1 <= 2 ^ 32)%Z -> (Z.of_nat l2 <= 2 ^ 32)%Z -> few (2 * (j + List.length vs)) -> Forall (ordinary k) vs ->
    exists os, run po_step c (mkPo src s l) (ticks n) = Ok os /\ run po_step c' (mkPo src' s l) (ticks n) = Ok os.
  Proof.
    intros X X' A B N1 N2 L1 L2 J H. rewrite !C58_price, X, X'. cbn [rbind].
    destruct (ma2 k1 l1 s c c' j vs N1 A L1 J H) as (o1 & o1' & E1 & E1' & Q1). destruct (ma2 k2 l2 l c c' j vs N2 B L2 J H) as (o2 & o2' & E2 & E2' & Q2).
    rewrite E1, E2, E1', E2'. cbn [rbind]. eexists. split; [reflexivity|]. f_equal. apply zip2; try assumption. intros. apply (pd_same log10 k K); apply bounded_oex; assumption.
  Qed.
  Theorem C132_volume_oscillator_positive (c c' : ctx f64) bs bs' k1 l1 k2 l2 (s l : any_ma) vs : fresh_over c bs -> fresh_over c' bs' ->
    map b_volume bs = map Some vs -> map b_volume bs' = map Some (map t2 vs) ->
    ma_new k1 l1 = Ok s -> ma_new k2 l2 = Ok l -> k1 <> SWMA -> k2 <> SWMA -> (Z.of_nat l1 <= 2 ^ 32)%Z -> (Z.of_nat l2 <= 2 ^ 32)%Z -> few (2 * List.length bs) -> Forall (ordinary k) vs ->
    exists os, run vo_step c (mkVo s l) (ticks (List.length bs)) = Ok os /\ run vo_step c' (mkVo s l) (ticks (List.length bs)) = Ok os.
  Proof.
    intros FR FR' V V' A B N1 N2 L1 L2 J H. pose proof (C58_volume c bs s l FR) as E. pose proof (C58_volume c' bs' s l FR') as E'.
    assert (LV : List.length bs = List.length vs) by (apply (f_equal (@List.length _)) in V; rewrite !map_length in V; exact V).
    assert (LV' : List.length bs' = List.length bs) by (apply (f_equal (@List.length _)) in V'; rewrite !map_length in V'; lia).
    rewrite LV' in E'. change (map Some vs) with (warm 0 vs) in V. change (map Some (map t2 vs)) with (warm 0 (map t2 vs)) in V'. rewrite <- T_warm in V'. rewrite V in E. rewrite V' in E'.
    assert (J' : few (2 * (0 + List.length vs))) by (rewrite <- LV; exact J).
    destruct (ma2 k1 l1 s c c' 0 vs N1 A L1 J' H) as (o1 & o1' & E1 & E1' & Q1). destruct (ma2 k2 l2 l c c' 0 vs N2 B L2 J' H) as (o2 & o2' & E2 & E2' & Q2).
    rewrite E1, E2 in E. rewrite E1', E2' in E'. cbn [rbind] in E, E'. eexists. split; [exact E|]. rewrite E'. f_equal. apply zip2; try assumption. intros. apply (pd_nz_same log10 k K); apply bounded_oex; assumption.
  Qed.
  (** The default volume oscillator: exponential averages of 5 and 10 bars. *)
  Theorem C132_volume_oscillator_default_f64 (c c' : ctx f64) bs bs' vs : fresh_over c bs -> fresh_over c' bs' ->
    map b_volume bs = map Some vs -> map b_volume bs' = map Some (map t2 vs) -> few (2 * List.length bs) -> Forall (ordinary k) vs ->
    exists os, run_new vo_default vo_step c (ticks (List.length bs)) = Ok os /\ run_new vo_default vo_step c' (ticks (List.length bs)) = Ok os.
  Proof.
    intros FR FR' V V' J H. unfold run_new, vo_default. destruct (ma_new EMA 5) as [a|] eqn:A; [|discriminate]. destruct (ma_new EMA 10) as [b|] eqn:B; [|discriminate].
    cbn [rbind]. apply (C132_volume_oscillator_positive c c' bs bs' EMA 5 EMA 10 a b vs); try assumption; try discriminate; lia.
  Qed.
End Ema2.

(** Examples: such values exist; computed runs over them and over eight times
    larger ones. The default volume oscillator has a value from bar 10 on. *)
Lemma ordinary_test (x : f64) : is_finite x && Bleb (f64_ofZ 1) x && Bleb x (f64_ofZ (2 ^ 40)) = true -> ordinary 3 x.
Proof.
  intros H. apply andb_prop in H. destruct H as [H B]. apply andb_prop in H. destruct H as [F A]. destruct (f64_ofZ_correct (2 ^ 40)) as [V G]; [cbn; lia|]. destruct (f64_ofZ_correct 1) as [V1 G1]; [lia|].
  apply le_test in A; [|exact G1|exact F]. apply le_test in B; [|exact F|exact G]. rewrite V in B. rewrite V1 in A. split; [exact F|]. split.
  - apply Rle_trans with 1; [|exact A]. change 1 with (bpow radix2 0). apply bpow_le. lia.
  - change (IZR (2 ^ 40)) with (bpow radix2 40) in B. apply Rle_trans with (bpow radix2 40 * bpow radix2 3); [apply Rmult_le_compat_r; [apply bpow_ge_0|exact B]|]. rewrite <- bpow_plus. apply bpow_le. lia.
Qed.
Definition vals10 : list f64 := map f64_ofZ [100; 110; 105; 130; 120; 90; 95; 140; 150; 145; 160]%Z.
Definition barsv (vs : list f64) : list (bar f64) := map (fun v => mkBar (Some (q 10)) (Some (q 12)) (Some (q 9)) (Some (q 11)) (Some v)) vs.
Example C125_ema_ex : Forall (ordinary 3) vals10 /\ few (2 * List.length (barsv vals10)) /\
  (exists c c', ctx_over (barsv vals10) = Ok c /\ ctx_over (barsv (map (times2 3) vals10)) = Ok c' /\ fresh_over c (barsv vals10) /\ fresh_over c' (barsv (map (times2 3) vals10))) /\
  map b_volume (barsv vals10) = map Some vals10 /\ map b_volume (barsv (map (times2 3) vals10)) = map Some (map (times2 3) vals10).
Proof.
  split; [repeat apply Forall_cons; [..|apply Forall_nil]; apply ordinary_test; vm_compute; reflexivity|]. split; [unfold few; cbn; lia|].
  split; [|split; reflexivity]. eexists _, _. split; [reflexivity|]. split; [reflexivity|]. split; (split; [repeat split|reflexivity]).
Qed.
Definition last_value (r : res (list (option f64))) : option f64 := match r with Ok os => last os None | Panic => None end.
Definition both_same (a b : option f64) : bool := match a, b with Some x, Some y => Beqb x y | _, _ => false end.
Example C125_ema_run :
  both_same (last_value (c <- ctx_over (barsv vals10) ;; run_new vo_default vo_step c (ticks 11))) (last_value (c <- ctx_over (barsv (map (times2 3) vals10)) ;; run_new vo_default vo_step c (ticks 11))) = true /\
  both_same (last_value (run_new (ema_new 5) ema_step ctx6 (map Some (map (times2 3) vals10)))) (option_map (times2 3) (last_value (run_new (ema_new 5) ema_step ctx6 (map Some vals10)))) = true /\
  both_same (last_value (run_new (rma_new 5) rma_step ctx6 (map Some (map (times2 3) vals10)))) (option_map (times2 3) (last_value (run_new (rma_new 5) rma_step ctx6 (map Some vals10)))) = true.
Proof. split; [|split]; vm_compute; reflexivity. Qed.
(** A factor that is no power of two: three times larger volumes. *)
Example C125_ema_not_three :
  both_same (last_value (run_new (ema_new 2) ema_step ctx6 (map Some (map (fun v => (f64_ofZ 3 * v)%num) vals10)))) (option_map (fun v => (f64_ofZ 3 * v)%num) (last_value (run_new (ema_new 2) ema_step ctx6 (map Some vals10)))) = false.
Proof. vm_compute. reflexivity. Qed.
