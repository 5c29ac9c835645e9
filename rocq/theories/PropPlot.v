(** * PropPlot: C114, the charts show the recorded histories. *)
From Flocq Require Import Core IEEE754.BinarySingleNaN.
From Verif Require Export MPlot PropMetrics PropMetrics2 PropStrategy PropTick.
From Verif Require Import Inst.
Import ListNotations.
Local Open Scope R_scope.

(** ** Specification *)
(** [y] is the f32 nearest to the real [v], ties to even. *)
Definition nearest32 (y : f32) (v : R) : Prop := is_finite y = true /\ B2R y = round radix2 (SpecFloat.fexp 24 128) ZnearestE v.
Definition exactly32 (y : f32) (v : R) : Prop := is_finite y = true /\ B2R y = v.
(** The largest f32. *)
Definition max32 : R := bpow radix2 128 - bpow radix2 104.
(** The point [y] on a chart shows the amount [v]: the same NaN or infinity, or the nearest
    f32; an amount beyond the largest f32 may be shown as an infinity of the same sign. *)
Definition shown (v : f64) (y : f32) : Prop :=
  match v with
  | B754_nan => y = B754_nan
  | B754_infinity s => y = B754_infinity s
  | _ => nearest32 y (B2R v) \/ (max32 < Rabs (B2R v) /\ y = B754_infinity (Bsign v))
  end.

Notation fexp32 := (SpecFloat.fexp 24 128).
Notation rnd32 v := (round radix2 fexp32 ZnearestE v).
#[local] Instance valid32 : Valid_exp fexp32 := fexp_correct 24 128 prec_gt_0_24.

Lemma format32 z e : (Z.abs z <= 2 ^ 24)%Z -> (-149 <= e <= 104)%Z -> generic_format radix2 fexp32 (IZR z * bpow radix2 e).
Proof.
  intros Hz He. destruct (Z.eq_dec (Z.abs z) (2 ^ 24)) as [Q|Q].
  - assert (G : forall s, (s = 1 \/ s = -1)%Z -> generic_format radix2 fexp32 (IZR (s * 2 ^ 24) * bpow radix2 e)).
    { intros s Hs. replace (IZR (s * 2 ^ 24) * bpow radix2 e) with (F2R (Float radix2 s (24 + e))) by (unfold F2R; cbn [Fnum Fexp]; rewrite bpow_plus, mult_IZR; change (bpow radix2 24) with (IZR (2 ^ 24)); ring).
      apply generic_format_F2R. intros N. cbn [Fnum Fexp]. unfold cexp. replace (F2R (Float radix2 s (24 + e))) with (IZR s * bpow radix2 (24 + e)) by reflexivity.
      assert (MM : (mag radix2 (IZR s * bpow radix2 (24 + e)) = 25 + e :> Z)%Z).
      { destruct Hs as [-> | ->]; [rewrite Rmult_1_l|replace (IZR (-1) * bpow radix2 (24 + e)) with (- bpow radix2 (24 + e)) by ring; rewrite mag_opp]; rewrite mag_bpow; lia. }
      rewrite MM. unfold SpecFloat.fexp, SpecFloat.emin. lia. }
    replace z with ((if (0 <=? z)%Z then 1 else -1) * 2 ^ 24)%Z by (destruct (Z.leb_spec 0 z); lia). apply G. destruct (0 <=? z)%Z; auto.
  - change (IZR z * bpow radix2 e) with (F2R (Float radix2 z e)). apply generic_format_F2R. intros N. cbn [Fnum Fexp].
    unfold cexp, SpecFloat.fexp, SpecFloat.emin. rewrite mag_F2R by exact N.
    assert (MM : (mag radix2 (IZR z) <= 24)%Z).
    { apply mag_le_bpow; [apply IZR_neq, N|]. rewrite <- abs_IZR. change (bpow radix2 24) with (IZR (2 ^ 24)). apply IZR_lt. lia. }
    lia.
Qed.
Lemma exact32 z e : (Z.abs z <= 2 ^ 24)%Z -> (-149 <= e <= 103)%Z -> rnd32 (IZR z * bpow radix2 e) = IZR z * bpow radix2 e /\ Rabs (IZR z * bpow radix2 e) < bpow radix2 128.
Proof.
  intros Hz He. split; [apply round_generic; [apply valid_rnd_N|apply format32; lia]|].
  rewrite Rabs_mult, <- abs_IZR, (Rabs_pos_eq (bpow radix2 e)) by apply bpow_ge_0.
  apply Rle_lt_trans with (bpow radix2 24 * bpow radix2 e); [apply Rmult_le_compat_r; [apply bpow_ge_0|change (bpow radix2 24) with (IZR (2 ^ 24)); apply IZR_le, Hz]|].
  rewrite <- bpow_plus. apply bpow_lt. lia.
Qed.
Lemma max32_eq : max32 = IZR (2 ^ 24 - 1) * bpow radix2 104.
Proof. unfold max32. replace (bpow radix2 128) with (bpow radix2 24 * bpow radix2 104) by (rewrite <- bpow_plus; reflexivity). rewrite minus_IZR. change (bpow radix2 24) with (IZR (2 ^ 24)). ring. Qed.
Lemma max32_format : generic_format radix2 fexp32 max32.
Proof. rewrite max32_eq. apply format32; lia. Qed.
Lemma max32_lt : max32 < bpow radix2 128.
Proof. unfold max32. pose proof (bpow_gt_0 radix2 104). lra. Qed.
Lemma rnd32_fits v : Rabs v <= max32 -> Rabs (rnd32 v) < bpow radix2 128.
Proof.
  intros H. apply Rle_lt_trans with max32; [|exact max32_lt].
  assert (G : - max32 <= v <= max32) by (unfold Rabs in H; destruct (Rcase_abs v); lra). apply Rabs_le. split.
  - apply round_ge_generic; [exact valid32|apply valid_rnd_N|apply generic_format_opp, max32_format|apply G].
  - apply round_le_generic; [exact valid32|apply valid_rnd_N|apply max32_format|apply G].
Qed.
(** *** The two conversions *)
Lemma normalize32 mx ex s : let v := F2R (Float radix2 mx ex) in let y := binary_normalize 24 128 prec_gt_0_24 prec_lt_emax_24 mode_NE mx ex s in
  nearest32 y v \/ (max32 < Rabs v /\ B2SF y = SpecFloat.S754_infinity (Rlt_bool v 0)).
Proof.
  intros v y. pose proof (binary_normalize_correct 24 128 prec_gt_0_24 prec_lt_emax_24 mode_NE mx ex s) as C. cbv zeta in C. fold v y in C.
  destruct (Rlt_bool_spec (Rabs (round radix2 fexp32 (round_mode mode_NE) v)) (bpow radix2 128)) as [L|L].
  - left. destruct C as (C & F & _). split; [exact F|exact C].
  - right. split; [|exact C]. destruct (Rle_or_lt (Rabs v) max32) as [Q|Q]; [|exact Q]. pose proof (rnd32_fits v Q) as B. cbn [round_mode] in L. lra.
Qed.
Lemma ofZ32 z : (Z.abs z <= 2 ^ 24)%Z -> exactly32 (f32_ofZ z) (IZR z).
Proof.
  intros H. destruct (normalize32 z 0 false) as [[F V]|[M _]].
  - split; [exact F|]. unfold f32_ofZ. rewrite V. unfold F2R. cbn [Fnum Fexp]. destruct (exact32 z 0 H ltac:(lia)) as [E _]. rewrite E. cbn. ring.
  - exfalso. unfold F2R in M. cbn [Fnum Fexp] in M. rewrite max32_eq, Rmult_1_r, <- abs_IZR in M.
    assert (1 <= bpow radix2 104) by (apply (bpow_le radix2 0 104); lia). apply IZR_le in H. assert (IZR (2 ^ 24) <= IZR (2 ^ 24 - 1) * 2) by (rewrite <- mult_IZR; apply IZR_le; lia).
    assert (2 <= bpow radix2 104) by (apply (bpow_le radix2 1 104); lia). assert (0 <= IZR (2 ^ 24 - 1)) by (apply IZR_le; lia). nra.
Qed.
Lemma inf_SF s (y : f32) : B2SF y = SpecFloat.S754_infinity s -> y = B754_infinity s.
Proof. destruct y; cbn; intros H; try discriminate H. injection H as ->. reflexivity. Qed.
Lemma shown_to32 v : shown v (to_f32 v).
Proof.
  destruct v as [s|s| |s m e H]; cbn [shown to_f32]; try reflexivity.
  - left. split; [reflexivity|]. cbn. rewrite round_0; [reflexivity|apply valid_rnd_N].
  - destruct (normalize32 (cond_Zopp s (Zpos m)) e s) as [N|[M E]]; [left; exact N|right]. split; [exact M|]. apply inf_SF. rewrite E. apply f_equal. cbn [Bsign].
    change (F2R (Float radix2 (cond_Zopp s (Zpos m)) e)) with (B2R (B754_finite s m e H : f64)) in *. clear -M.
    assert (P : 0 < F2R (Float radix2 (Zpos m) e)) by (apply F2R_gt_0; reflexivity).
    cbn [B2R]. destruct s; cbn [cond_Zopp].
    + rewrite F2R_Zopp. apply Rlt_bool_true. lra.
    + apply Rlt_bool_false. lra.
Qed.
(** The conversion of a finite amount, with the exact overflow condition. *)
Lemma to32_finite (v : f64) : is_finite v = true ->
  (nearest32 (to_f32 v) (B2R v) /\ Rabs (rnd32 (B2R v)) < bpow radix2 128) \/
  (bpow radix2 128 <= Rabs (rnd32 (B2R v)) /\ to_f32 v = B754_infinity (Rlt_bool (B2R v) 0)).
Proof.
  destruct v as [s|s| |s m e H]; intros F; try discriminate F.
  - left. change (B2R (B754_zero s : f64)) with 0. unfold nearest32. rewrite round_0 by apply valid_rnd_N. rewrite Rabs_R0. split; [|apply bpow_gt_0]. split; reflexivity.
  - cbn [to_f32]. pose proof (binary_normalize_correct 24 128 prec_gt_0_24 prec_lt_emax_24 mode_NE (cond_Zopp s (Zpos m)) e s) as C. cbv zeta in C.
    change (F2R (Float radix2 (cond_Zopp s (Zpos m)) e)) with (B2R (B754_finite s m e H : f64)) in C.
    destruct (Rlt_bool_spec (Rabs (round radix2 fexp32 (round_mode mode_NE) (B2R (B754_finite s m e H : f64)))) (bpow radix2 128)) as [L|L].
    + left. destruct C as (C & F' & _). split; [split; [exact F'|exact C]|exact L].
    + right. split; [exact L|]. apply inf_SF, C.
Qed.
Lemma rnd32_le a b : a <= b -> rnd32 a <= rnd32 b.
Proof. intros H. apply round_le; [exact valid32|apply valid_rnd_N|exact H]. Qed.
Lemma rnd32_pos a : 0 <= a -> 0 <= rnd32 a.
Proof. intros H. rewrite <- (round_0 radix2 fexp32 ZnearestE). apply rnd32_le, H. Qed.
Lemma rnd32_neg a : a <= 0 -> rnd32 a <= 0.
Proof. intros H. rewrite <- (round_0 radix2 fexp32 ZnearestE). apply rnd32_le, H. Qed.
Lemma inf_top (y : f32) : is_nan y = false -> Bleb y (B754_infinity false) = true.
Proof. destruct y as [[]|[]| |[] m e H]; intros N; try discriminate N; reflexivity. Qed.
Lemma inf_bottom (y : f32) : is_nan y = false -> Bleb (B754_infinity true) y = true.
Proof. destruct y as [[]|[]| |[] m e H]; intros N; try discriminate N; reflexivity. Qed.
Lemma to32_nan (v : f64) : is_nan v = false -> is_nan (to_f32 v) = false.
Proof.
  intros N. destruct (is_finite v) eqn:F.
  - destruct (to32_finite v F) as [[[F' _] _]|[_ ->]]; [|reflexivity]. destruct (to_f32 v); try discriminate F'; reflexivity.
  - destruct v; try discriminate F; [reflexivity|discriminate N].
Qed.
Lemma le_cases (v w : f64) : Bleb v w = true -> is_nan v = false /\ is_nan w = false /\
  (v = B754_infinity true \/ w = B754_infinity false \/ (is_finite v = true /\ is_finite w = true /\ B2R v <= B2R w)).
Proof.
  intros H. destruct (is_finite v) eqn:Fv, (is_finite w) eqn:Fw.
  - pose proof (Bleb_correct 53 1024 v w Fv Fw) as C. rewrite H in C. symmetry in C.
    split; [destruct v; try discriminate Fv; reflexivity|]. split; [destruct w; try discriminate Fw; reflexivity|].
    right; right. split; [reflexivity|]. split; [reflexivity|]. destruct (Rle_bool_spec (B2R v) (B2R w)) as [L|L]; [exact L|discriminate C].
  - destruct w as [?|[]| |]; try discriminate Fw; destruct v as [?|?| |[] ? ? ?]; try discriminate Fv; try discriminate H; auto.
  - destruct v as [?|[]| |]; try discriminate Fv; destruct w as [?|?| |[] ? ? ?]; try discriminate Fw; try discriminate H; auto.
  - destruct v as [?|[]| |]; try discriminate Fv; destruct w as [?|[]| |[] ? ? ?]; try discriminate Fw; try discriminate H; auto.
Qed.
Lemma to32_le (v w : f64) : Bleb v w = true -> Bleb (to_f32 v) (to_f32 w) = true.
Proof.
  intros H. apply le_cases in H. destruct H as (Nv & Nw & [->|[->|(Fv & Fw & L)]]).
  - apply inf_bottom, to32_nan, Nw.
  - apply inf_top, to32_nan, Nv.
  - pose proof (rnd32_le _ _ L) as RL.
    destruct (to32_finite v Fv) as [[[F1 V1] B1]|[B1 E1]], (to32_finite w Fw) as [[[F2 V2] B2]|[B2 E2]].
    + rewrite (Bleb_correct 24 128 _ _ F1 F2). apply Rle_bool_true. rewrite V1, V2. exact RL.
    + rewrite E2. destruct (Rlt_bool_spec (B2R w) 0) as [S|S]; [|apply inf_top, to32_nan, Nv].
      exfalso. assert (S1 : rnd32 (B2R w) <= 0) by (apply rnd32_neg; lra). rewrite Rabs_left1 in B2 by exact S1. rewrite Rabs_left1 in B1 by lra. lra.
    + rewrite E1. destruct (Rlt_bool_spec (B2R v) 0) as [S|S]; [apply inf_bottom, to32_nan, Nw|].
      exfalso. pose proof (rnd32_pos _ S) as S1. rewrite Rabs_pos_eq in B1 by exact S1. rewrite Rabs_pos_eq in B2 by lra. lra.
    + rewrite E1, E2. destruct (Rlt_bool_spec (B2R v) 0) as [S|S]; [apply inf_bottom; reflexivity|].
      rewrite Rlt_bool_false by lra. reflexivity.
Qed.
(** *** Horizontal positions *)
Lemma ofZ32_near z : (Z.abs z <= 2 ^ 64)%Z -> nearest32 (f32_ofZ z) (IZR z).
Proof.
  intros H. destruct (normalize32 z 0 false) as [[F V]|[M _]].
  - split; [exact F|]. unfold f32_ofZ. rewrite V. unfold F2R. cbn [Fnum Fexp]. rewrite Rmult_1_r. reflexivity.
  - exfalso. unfold F2R in M. cbn [Fnum Fexp] in M. rewrite max32_eq, Rmult_1_r, <- abs_IZR in M.
    assert (IZR (Z.abs z) <= bpow radix2 64) by (change (bpow radix2 64) with (IZR (2 ^ 64)); apply IZR_le, H).
    assert (bpow radix2 64 <= bpow radix2 104) by (apply bpow_le; lia). pose proof (bpow_gt_0 radix2 104) as P. assert (1 <= IZR (2 ^ 24 - 1)) by (apply IZR_le; lia). nra.
Qed.
(** where the [j]-th point (from 0) is drawn. *)
Definition position (j : nat) : f32 := add32 (f32_ofZ (Z.of_nat j)) (f32_ofZ 1).
Lemma rnd32_Z z : (0 <= z <= 2 ^ 64)%Z -> 0 <= rnd32 (IZR z) <= bpow radix2 64.
Proof.
  intros H. split; [apply rnd32_pos, IZR_le; lia|]. apply round_le_generic; [exact valid32|apply valid_rnd_N| |change (bpow radix2 64) with (IZR (2 ^ 64)); apply IZR_le; lia].
  replace (bpow radix2 64) with (IZR 1 * bpow radix2 64) by ring. apply format32; lia.
Qed.
Lemma position_near j : (Z.of_nat j <= 2 ^ 64)%Z -> nearest32 (position j) (rnd32 (INR j) + 1).
Proof.
  intros H. destruct (ofZ32_near (Z.of_nat j) ltac:(lia)) as [F V]. destruct (ofZ32 1 ltac:(lia)) as [F1 V1]. rewrite INR_IZR_INZ.
  pose proof (Bplus_correct 24 128 prec_gt_0_24 prec_lt_emax_24 mode_NE _ _ F F1) as C. rewrite V, V1 in C.
  pose proof (rnd32_Z (Z.of_nat j) ltac:(lia)) as B.
  rewrite Rlt_bool_true in C.
  - destruct C as (C & Fz & _). split; [exact Fz|exact C].
  - apply rnd32_fits. rewrite Rabs_pos_eq by lra. rewrite max32_eq. assert (1 <= bpow radix2 64) by (apply (bpow_le radix2 0 64); lia).
    assert (bpow radix2 64 <= bpow radix2 104) by (apply bpow_le; lia). assert (2 <= IZR (2 ^ 24 - 1)) by (apply IZR_le; lia). nra.
Qed.
Lemma rnd32_int z : (Z.abs z <= 2 ^ 24)%Z -> rnd32 (IZR z) = IZR z.
Proof. intros H. destruct (exact32 z 0 H ltac:(lia)) as [E _]. cbn [bpow] in E. rewrite Rmult_1_r in E. exact E. Qed.
Lemma position_exact j : (Z.of_nat j < 2 ^ 24)%Z -> exactly32 (position j) (INR j + 1).
Proof.
  intros H. destruct (position_near j ltac:(lia)) as [F V]. split; [exact F|]. rewrite V, INR_IZR_INZ, rnd32_int by lia. rewrite <- plus_IZR. apply rnd32_int. lia.
Qed.
Lemma nth_enumerate {A} (l : list A) : forall i j, nth_error (enumerate i l) j = option_map (fun v => ((i + j)%nat, v)) (nth_error l j).
Proof.
  induction l as [|x l IH]; intros i [|j]; cbn [enumerate nth_error option_map]; try reflexivity; [rewrite Nat.add_0_r; reflexivity|].
  rewrite IH. replace (S i + j)%nat with (i + S j)%nat by lia. reflexivity.
Qed.
Lemma length_enumerate {A} (l : list A) : forall i, List.length (enumerate i l) = List.length l.
Proof. induction l; intros i; cbn; congruence. Qed.
Lemma nth_points l size j : nth_error (ch_points (text_plot l size)) j = option_map (fun v => (position j, to_f32 v)) (nth_error l j).
Proof. unfold text_plot. cbn [ch_points]. rewrite nth_error_map, nth_enumerate. destruct (nth_error l j); reflexivity. Qed.

(** ** C114 *)
(** One point per entry of the history, in order; the entry at position [j] (from 0) is shown
    at height its value, and at [j + 1] (exactly, for the first 2^24 entries). *)
Theorem C114_points l size : let ch := text_plot l size in
  ch_width ch = fst size /\ ch_height ch = snd size /\ List.length (ch_points ch) = List.length l /\
  forall j v, nth_error l j = Some v -> exists x y, nth_error (ch_points ch) j = Some (x, y) /\ shown v y /\
    ((Z.of_nat j < 2 ^ 24)%Z -> exactly32 x (INR j + 1)).
Proof.
  cbv zeta. split; [reflexivity|]. split; [reflexivity|]. split; [unfold text_plot; cbn [ch_points]; rewrite map_length, length_enumerate; reflexivity|].
  intros j v H. exists (position j), (to_f32 v). split; [rewrite nth_points, H; reflexivity|]. split; [apply shown_to32|apply position_exact].
Qed.
(** The axis runs from 1 to the number of entries and covers every point. *)
Theorem C114_axis l size : l <> [] -> (Z.of_nat (List.length l) <= 2 ^ 24)%Z -> let ch := text_plot l size in
  exactly32 (ch_xmin ch) 1 /\ exactly32 (ch_xmax ch) (INR (List.length l)) /\
  (exists p q, nth_error (ch_points ch) 0 = Some p /\ nth_error (ch_points ch) (List.length l - 1) = Some q /\ B2R (fst p) = B2R (ch_xmin ch) /\ B2R (fst q) = B2R (ch_xmax ch)) /\
  forall p, In p (ch_points ch) -> B2R (ch_xmin ch) <= B2R (fst p) <= B2R (ch_xmax ch).
Proof.
  intros N L. cbv zeta. assert (LP : (1 <= List.length l)%nat) by (destruct l; [contradiction|cbn; lia]).
  assert (X1 : exactly32 (ch_xmin (text_plot l size)) 1) by (apply ofZ32; lia).
  assert (X2 : exactly32 (ch_xmax (text_plot l size)) (INR (List.length l))) by (rewrite INR_IZR_INZ; apply ofZ32; lia).
  split; [exact X1|]. split; [exact X2|]. destruct X1 as [_ X1]. destruct X2 as [_ X2]. rewrite X1, X2. split.
  - destruct (nth_error l 0) as [v|] eqn:E0; [|apply nth_error_None in E0; lia]. destruct (nth_error l (List.length l - 1)) as [w|] eqn:E1; [|apply nth_error_None in E1; lia].
    exists (position 0, to_f32 v), (position (List.length l - 1), to_f32 w). rewrite !nth_points, E0, E1. split; [reflexivity|]. split; [reflexivity|]. cbn [fst].
    destruct (position_exact 0 ltac:(lia)) as [_ ->]. destruct (position_exact (List.length l - 1) ltac:(lia)) as [_ ->]. rewrite minus_INR by lia. cbn [INR]. lra.
  - intros p I. apply In_nth_error in I. destruct I as (j & Ej). rewrite nth_points in Ej. destruct (nth_error l j) as [v|] eqn:Ev; [|discriminate Ej].
    assert (LJ : (j < List.length l)%nat) by (apply nth_error_Some; rewrite Ev; discriminate).
    cbn [option_map] in Ej. apply some_eq in Ej. subst p. cbn [fst]. destruct (position_exact j ltac:(lia)) as [_ ->].
    pose proof (pos_INR j). apply (le_INR (S j)) in LJ. rewrite S_INR in LJ. lra.
Qed.
(** Whatever the length (up to 2^64), later entries are never drawn to the left of earlier ones, and
    strictly to the right within the first 2^24. *)
Theorem C114_left_to_right l size i j p q : (Z.of_nat (List.length l) <= 2 ^ 64)%Z -> (i < j)%nat ->
  nth_error (ch_points (text_plot l size)) i = Some p -> nth_error (ch_points (text_plot l size)) j = Some q ->
  is_finite (fst p) = true /\ is_finite (fst q) = true /\ B2R (fst p) <= B2R (fst q) /\ ((Z.of_nat j < 2 ^ 24)%Z -> B2R (fst p) < B2R (fst q)).
Proof.
  intros L IJ. rewrite !nth_points. destruct (nth_error l i) as [v|] eqn:Ei; [|discriminate]. destruct (nth_error l j) as [w|] eqn:Ej; [|discriminate].
  cbn [option_map]. intros Hp Hq. apply some_eq in Hp. apply some_eq in Hq. subst p q. cbn [fst].
  assert (LJ : (j < List.length l)%nat) by (apply nth_error_Some; rewrite Ej; discriminate).
  destruct (position_near i ltac:(lia)) as [F1 V1]. destruct (position_near j ltac:(lia)) as [F2 V2]. split; [exact F1|]. split; [exact F2|]. split.
  - rewrite V1, V2. apply rnd32_le, Rplus_le_compat_r, rnd32_le, le_INR. lia.
  - intros J. destruct (position_exact i ltac:(lia)) as [_ ->]. destruct (position_exact j J) as [_ ->]. apply lt_INR in IJ. lra.
Qed.
(** Beyond that, positions collide: entries 2^24 - 1 and 2^24 are drawn at the same place. *)
Theorem C114_collide l size : (2 ^ 24 < Z.of_nat (List.length l))%Z -> exists p q,
  nth_error (ch_points (text_plot l size)) (Z.to_nat (2 ^ 24 - 1)) = Some p /\ nth_error (ch_points (text_plot l size)) (Z.to_nat (2 ^ 24)) = Some q /\
  B2R (fst p) = IZR (2 ^ 24) /\ B2R (fst q) = IZR (2 ^ 24).
Proof.
  intros L.
  destruct (nth_error l (Z.to_nat (2 ^ 24 - 1))) as [v|] eqn:E0; [|apply nth_error_None in E0; lia]. destruct (nth_error l (Z.to_nat (2 ^ 24))) as [w|] eqn:E1; [|apply nth_error_None in E1; lia].
  eexists _, _. rewrite !nth_points, E0, E1. split; [reflexivity|]. split; [reflexivity|]. cbn [fst]. split.
  - destruct (position_exact (Z.to_nat (2 ^ 24 - 1)) ltac:(lia)) as [_ ->]. rewrite INR_IZR_INZ, Z2Nat.id, <- plus_IZR by lia. apply f_equal. lia.
  - unfold position. rewrite Z2Nat.id by lia. rewrite <- (SF2R_B2SF 24 128).
    assert (E : B2SF (add32 (f32_ofZ (2 ^ 24)) (f32_ofZ 1)) = SpecFloat.S754_finite false 8388608 1) by (vm_compute; reflexivity).
    rewrite E. unfold SF2R, F2R. cbn [Fnum Fexp cond_Zopp bpow radix_val radix2]. rewrite <- mult_IZR. apply f_equal. reflexivity.
Qed.
(** A history that does not fall is not drawn as falling: order is preserved, infinities included. *)
Theorem C114_order (l : list f64) size i j (v w : f64) p q : nth_error l i = Some v -> nth_error l j = Some w -> Bleb v w = true ->
  nth_error (ch_points (text_plot l size)) i = Some p -> nth_error (ch_points (text_plot l size)) j = Some q -> Bleb (snd p) (snd q) = true.
Proof.
  intros Hv Hw L. rewrite !nth_points, Hv, Hw. cbn [option_map]. intros Hp Hq. apply some_eq in Hp. apply some_eq in Hq. subst p q. apply to32_le, L.
Qed.
(** Amounts of at most 2^24 whole ticks are drawn exactly. *)
Theorem C114_exact (l : list f64) size e j (v : f64) : (-149 <= e <= 103)%Z -> nth_error l j = Some v -> ticks_of e (2 ^ 24) v ->
  exists p, nth_error (ch_points (text_plot l size)) j = Some p /\ exactly32 (snd p) (B2R v).
Proof.
  intros E H (F & z & V & B). eexists. rewrite nth_points, H. split; [reflexivity|]. cbn [snd].
  destruct (exact32 z e B E) as [X1 X2]. destruct (to32_finite v F) as [[[F1 V1] _]|[B1 _]].
  - split; [exact F1|]. rewrite V1, V. exact X1.
  - exfalso. rewrite V, X1 in B1. lra.
Qed.
(** ** The three charts of a backtest *)
Section Charts.
  Variable log10 : f64 -> f64.
  #[local] Instance N114 : Num f64 := IEEE log10.
  (** Equity: the initial capital at 1, then the equity after bar [i] at [i + 2]. *)
  Theorem C114_equity cfg rfr c sigs os s t size : observed tv_step cfg (tv_new (strategy_new cfg) rfr) c sigs os -> newest os = Some (s, t) ->
    let ch := plot_equity (tv_data t) size in
    List.length (ch_points ch) = S (List.length sigs) /\
    (exists x y, nth_error (ch_points ch) 0 = Some (x, y) /\ exactly32 x 1 /\ shown (sc_capital cfg) y) /\
    (forall i o, nth_error os i = Some o -> exists x y, nth_error (ch_points ch) (S i) = Some (x, y) /\ shown (sm_equity (s_metrics (fst o))) y /\
      ((Z.of_nat i + 1 < 2 ^ 24)%Z -> exactly32 x (INR i + 2))).
  Proof.
    intros O N. cbv zeta. destruct (C38_running_max cfg rfr c sigs os s t O N) as (_ & _ & H & L & _). cbv zeta in H, L. unfold plot_equity.
    destruct (C114_points (tv_equity_history (tv_data t)) size) as (_ & _ & LP & P). split; [rewrite LP; exact L|]. split.
    - destruct (P 0%nat (sc_capital cfg)) as (x & y & Q1 & Q2 & Q3); [rewrite H; reflexivity|]. exists x, y. split; [exact Q1|]. split; [|exact Q2].
      specialize (Q3 ltac:(lia)). cbn [INR] in Q3. replace (0 + 1) with 1 in Q3 by ring. exact Q3.
    - intros i o Ho. destruct (P (S i) (sm_equity (s_metrics (fst o)))) as (x & y & Q1 & Q2 & Q3); [rewrite H; cbn [nth_error]; rewrite nth_error_map, Ho; reflexivity|].
      exists x, y. split; [exact Q1|]. split; [exact Q2|]. intros J. specialize (Q3 ltac:(lia)). rewrite S_INR in Q3. replace (INR i + 1 + 1) with (INR i + 2) in Q3 by ring. exact Q3.
  Qed.
  (** Net equity and maximum drawdown: a first point (capital, nothing), then one point per closed trade, in order. *)
  Theorem C114_trades cfg rfr c sigs os s t size : observed tv_step cfg (tv_new (strategy_new cfg) rfr) c sigs os -> newest os = Some (s, t) ->
    let exits := filter (fun o => is_some (s_on_exit (fst o))) os in
    let net := ch_points (plot_net_equity (tv_data t) size) in let dd := ch_points (plot_max_drawdown (tv_data t) size) in
    List.length net = S (List.length exits) /\ List.length dd = S (List.length exits) /\ List.length exits = sm_closed (s_metrics s) /\
    (exists x y, nth_error net 0 = Some (x, y) /\ exactly32 x 1 /\ shown (sc_capital cfg) y) /\
    (exists x y, nth_error dd 0 = Some (x, y) /\ exactly32 x 1 /\ exactly32 y 0) /\
    (forall i o, nth_error exits i = Some o ->
      exists x x' y z, nth_error net (S i) = Some (x, y) /\ nth_error dd (S i) = Some (x', z) /\
        shown (fadd (sc_capital cfg) (sm_net (s_metrics (fst o)))) y /\ shown (tv_max_drawdown (tv_data (snd o))) z /\
        ((Z.of_nat i + 1 < 2 ^ 24)%Z -> exactly32 x (INR i + 2) /\ exactly32 x' (INR i + 2))).
  Proof.
    intros O N. cbv zeta. destruct (C38_running_max cfg rfr c sigs os s t O N) as (_ & _ & _ & _ & L1 & L2). destruct (C38_histories cfg rfr c sigs os s t O N) as (H1 & H2). cbv zeta in *.
    set (exits := filter (fun o => is_some (s_on_exit (fst o))) os) in *. unfold plot_net_equity, plot_max_drawdown.
    destruct (C114_points (tv_net_equity_history (tv_data t)) size) as (_ & _ & LP & P). destruct (C114_points (tv_max_drawdown_history (tv_data t)) size) as (_ & _ & LD & D). cbv zeta in *.
    rewrite LP, LD. split; [rewrite H1; cbn [List.length]; rewrite map_length; reflexivity|]. split; [rewrite H2; cbn [List.length]; rewrite map_length; reflexivity|].
    split; [rewrite H1 in L1; cbn [List.length] in L1; rewrite map_length in L1; lia|]. split; [|split].
    - destruct (P 0%nat (sc_capital cfg)) as (x & y & Q1 & Q2 & Q3); [rewrite H1; reflexivity|]. exists x, y. split; [exact Q1|]. split; [|exact Q2].
      specialize (Q3 ltac:(lia)). cbn [INR] in Q3. replace (0 + 1) with 1 in Q3 by ring. exact Q3.
    - destruct (D 0%nat (fZ 0)) as (x & y & Q1 & Q2 & Q3); [rewrite H2; reflexivity|]. exists x, y. split; [exact Q1|]. split.
      + specialize (Q3 ltac:(lia)). cbn [INR] in Q3. replace (0 + 1) with 1 in Q3 by ring. exact Q3.
      + destruct (f64_ofZ_correct 0 ltac:(lia)) as [Z1 Z2]. change (fZ 0) with (f64_ofZ 0) in Q2. destruct (f64_ofZ 0) as [sg| | |] eqn:EZ; try discriminate EZ.
        cbn [shown] in Q2. destruct Q2 as [[F V]|[M _]].
        * split; [exact F|]. rewrite V. cbn [B2R]. apply round_0. apply valid_rnd_N.
        * exfalso. cbn [B2R] in M. rewrite Rabs_R0, max32_eq in M. pose proof (bpow_gt_0 radix2 104). assert (0 < IZR (2 ^ 24 - 1)) by (apply IZR_lt; lia). nra.
    - intros i o Ho. destruct (P (S i) (fadd (sc_capital cfg) (sm_net (s_metrics (fst o))))) as (x & y & Q1 & Q2 & Q3); [rewrite H1; cbn [nth_error]; rewrite nth_error_map, Ho; reflexivity|].
      destruct (D (S i) (tv_max_drawdown (tv_data (snd o)))) as (x' & z & R1 & R2 & R3); [rewrite H2; cbn [nth_error]; rewrite nth_error_map, Ho; reflexivity|].
      exists x, x', y, z. split; [exact Q1|]. split; [exact R1|]. split; [exact Q2|]. split; [exact R2|]. intros J. specialize (Q3 ltac:(lia)). specialize (R3 ltac:(lia)).
      rewrite S_INR in Q3, R3. replace (INR i + 1 + 1) with (INR i + 2) in Q3, R3 by ring. split; assumption.
  Qed.
End Charts.
(** The hypotheses are met: the backtest of [C112_ex]; its equity chart has a first point (1, 1000) and one per bar. *)
Definition chart114 (plot : tvdata f64 -> Z * Z -> chart) : option (list (SpecFloat.spec_float * SpecFloat.spec_float)) :=
  match run (metered tv_step) ctx6 (strategy_new cfg112, tv_new (strategy_new cfg112) (q 0)) sig6 with
  | Ok os => match rev os with (_, t) :: _ => Some (map (fun p => (B2SF (fst p), B2SF (snd p))) (ch_points (plot (tv_data t) (120, 40)%Z))) | [] => None end
  | Panic => None
  end.
Definition at114 (x y : Z) : SpecFloat.spec_float * SpecFloat.spec_float := (B2SF (f32_ofZ x), B2SF (f32_ofZ y)).
Example C114_ex :
  chart114 plot_equity = Some [at114 1 1000; at114 2 1000; at114 3 1002; at114 4 1001; at114 5 1004; at114 6 1003; at114 7 1008] /\
  chart114 plot_net_equity = Some [at114 1 1000; at114 2 1001; at114 3 1003] /\
  chart114 plot_max_drawdown = Some [at114 1 0; at114 2 1; at114 3 1].
Proof. vm_compute. auto. Qed.
(** What the conversion does to 1/10 and to an amount no f32 holds. *)
Example C114_ex_values : B2SF (to_f32 (lit 1 10)) = SpecFloat.S754_finite false 13421773 (-27) /\
  to_f32 (f64_ofZ (- 10 ^ 39)) = B754_infinity true /\ to_f32 (f64_ofZ (2 ^ 24 + 1)) = to_f32 (f64_ofZ (2 ^ 24)).
Proof. split; [vm_compute; reflexivity|]. split; [apply B2SF_inj; vm_compute; reflexivity|]. apply B2SF_inj; vm_compute; reflexivity. Qed.
