(** * PropSmooth: C124 (indicators built on exponential averages do not drift in f64). *)
From Coq Require Import Reals Lra Lia Psatz.
From Flocq Require Import Core IEEE754.BinarySingleNaN Relative.
From Verif Require Import PropWhole.
From Verif Require PropTrend.
From Verif Require Import PropContent4.
From Verif Require Import Inst PropTick PropWin PIeee2 PRound PMono PropError PropDrift PExact3 PTa2 PTa3 PropTa3 PropRound PropRatio.
Local Open Scope R_scope.

(** ** Exact averages do not amplify differences *)
Definition within (d x y : R) : Prop := Rabs (x - y) <= d.
Lemma Forall2_firstn' {A B} (P : A -> B -> Prop) n xs ys : Forall2 P xs ys -> Forall2 P (firstn n xs) (firstn n ys).
Proof. intros H. revert n. induction H as [|x y xs ys Hx _ IH]; intros [|n]; cbn [firstn]; auto. Qed.
Lemma Forall2_skipn' {A B} (P : A -> B -> Prop) n xs ys : Forall2 P xs ys -> Forall2 P (skipn n xs) (skipn n ys).
Proof. intros H. revert n. induction H as [|x y xs ys Hx H IH]; intros [|n]; cbn [skipn]; auto. Qed.
Lemma Forall2_len {A B} (P : A -> B -> Prop) xs ys : Forall2 P xs ys -> length xs = length ys.
Proof. induction 1; cbn; congruence. Qed.
Lemma Rsum_within d xs ys : Forall2 (within d) xs ys -> Rabs (Rsum xs - Rsum ys) <= INR (length xs) * d.
Proof.
  induction 1 as [|x y xs ys Hx _ IH]; [cbn; rewrite Rminus_0_r, Rabs_R0; lra|]. cbn [Rsum length]. rewrite S_INR.
  replace (x + Rsum xs - (y + Rsum ys)) with ((x - y) + (Rsum xs - Rsum ys)) by ring. eapply Rle_trans; [apply Rabs_triang|]. unfold within in Hx. lra.
Qed.
Lemma fold_within a d xs ys : 0 <= a <= 1 -> Forall2 (within d) xs ys -> forall e f, within d e f ->
  within d (fold_left (fun e v => a * v + (1 - a) * e) xs e) (fold_left (fun e v => a * v + (1 - a) * e) ys f).
Proof.
  intros A. induction 1 as [|x y xs ys Hx _ IH]; intros e f H; cbn [fold_left]; [exact H|]. apply IH. unfold within in *.
  replace (a * x + (1 - a) * e - (a * y + (1 - a) * f)) with (a * (x - y) + (1 - a) * (e - f)) by ring.
  eapply Rle_trans; [apply Rabs_triang|]. rewrite !Rabs_mult, (Rabs_pos_eq a), (Rabs_pos_eq (1 - a)) by lra. nra.
Qed.
Lemma Rsmooth_within a len d xs ys : (1 <= len)%nat -> 0 <= a <= 1 -> Forall2 (within d) xs ys ->
  match Rsmooth a len xs, Rsmooth a len ys with Some e, Some f => within d e f | None, None => True | _, _ => False end.
Proof.
  intros L A H. unfold Rsmooth. rewrite <- (Forall2_len _ _ _ H). destruct (Nat.ltb_spec (length xs) len) as [S|S]; [exact I|].
  apply fold_within; [exact A|apply Forall2_skipn', H|]. pose proof (Forall2_firstn' _ len _ _ H) as H1. pose proof (Rsum_within _ _ _ H1) as E.
  unfold within, Rmean. rewrite <- (Forall2_len _ _ _ H1). assert (LF : length (firstn len xs) = len) by (rewrite firstn_length; lia). rewrite LF in *.
  assert (1 <= INR len) by (apply (le_INR 1); exact L).
  replace (Rsum (firstn len xs) / INR len - Rsum (firstn len ys) / INR len) with ((Rsum (firstn len xs) - Rsum (firstn len ys)) * / INR len) by (field; lra).
  rewrite Rabs_mult, (Rabs_pos_eq (/ INR len)) by (apply Rlt_le, Rinv_0_lt_compat; lra).
  apply (Rmult_le_reg_r (INR len)); [lra|]. rewrite Rmult_assoc, Rinv_l by lra. lra.
Qed.

Lemma all_present {A B} (P : A -> B -> Prop) rs : forall ts : list (option A), length ts = length rs ->
  (forall i r, nth_error rs i = Some r -> exists v, nth_error ts i = Some (Some v) /\ P v r) -> exists vs, ts = map Some vs /\ Forall2 P vs rs.
Proof.
  induction rs as [|r rs IH]; intros [|t ts] L H; try discriminate L; [exists []; split; [reflexivity|constructor]|].
  injection L as L. destruct (H O r eq_refl) as (v & E & Hv). cbn in E. injection E as ->.
  destruct (IH ts L (fun i => H (S i))) as (vs & -> & F). exists (v :: vs). split; [reflexivity|]. constructor; assumption.
Qed.
Lemma Forall2_map_l {A B C} (f : A -> B) (P : B -> C -> Prop) xs ys : Forall2 (fun x y => P (f x) y) xs ys -> Forall2 P (map f xs) ys.
Proof. induction 1; cbn; constructor; assumption. Qed.
Lemma Forall2_impl' {A B} (P Q : A -> B -> Prop) xs ys : (forall x y, P x y -> Q x y) -> Forall2 P xs ys -> Forall2 Q xs ys.
Proof. intros H. induction 1; constructor; auto. Qed.
Lemma Forall2_left {A B} (P : A -> B -> Prop) (Q : A -> Prop) xs ys : (forall x y, P x y -> Q x) -> Forall2 P xs ys -> Forall Q xs.
Proof. intros H. induction 1; constructor; eauto. Qed.
Lemma present_somes {A} (vs : list A) : present (map Some vs) = vs.
Proof. exact (present_warm 0 vs). Qed.

Lemma each_prefix_firstn {A B} (f : list A -> B) n xs : each_prefix f (firstn n xs) = firstn n (each_prefix f xs).
Proof.
  induction xs as [|x xs IH] using rev_ind; [rewrite !firstn_nil; reflexivity|]. rewrite each_prefix_snoc.
  destruct (Nat.le_gt_cases n (length xs)) as [L|L].
  - rewrite !firstn_app, length_each_prefix. replace (n - length xs)%nat with O by lia. cbn [firstn]. rewrite !app_nil_r. exact IH.
  - rewrite (firstn_all2 (xs ++ [x])) by (rewrite app_length; cbn; lia). rewrite each_prefix_snoc. rewrite firstn_all2 by (rewrite app_length, length_each_prefix; cbn; lia). reflexivity.
Qed.

Lemma Forall_firstn {A} (P : A -> Prop) n l : Forall P l -> Forall P (firstn n l).
Proof. intros H. revert n. induction H as [|x l Hx _ IH]; intros [|n]; cbn [firstn]; auto. Qed.

(** Values of at most [M]; moves between them of at most [4 M]. *)
Definition scale (M : R) : Prop := bpow radix2 (-900) <= M <= bpow radix2 890.

Section C124.
  Variable log10 : f64 -> f64.
  #[local] Instance N124 : Num f64 := IEEE log10.

  Lemma rma_val_near len M vs : (2 <= len)%nat -> (Z.of_nat len <= 2 ^ 32)%Z -> magnitude M -> bounded_by M vs ->
    match Rsmooth (1 / INR len) len (map B2R vs) with
    | None => ema_val (rma_alpha_of len) len vs = None
    | Some E => exists e, ema_val (rma_alpha_of len) len vs = Some e /\ is_finite e = true /\ Rabs (B2R e - E) <= INR len * M / 2 ^ 48 /\ Rabs E <= M
    end.
  Proof.
    intros L L' HM B. pose proof (IL32 _ L') as IL. assert (P : 2 <= INR len) by (apply (le_INR 2); exact L).
    destruct (f64_ofZ_correct (Z.of_nat len) ltac:(lia)) as [En Fn]. rewrite <- INR_IZR_INZ in En. destruct (f64_ofZ_correct 1 ltac:(lia)) as [E2 F2].
    destruct (weight_near log10 (f64_ofZ 1) (f64_ofZ (Z.of_nat len)) 1 (INR len) F2 Fn E2 En) as (FA & HA & A1); [lra|replace (2 ^ 33) with 8589934592 by ring; lra|].
    assert (A2 : 0 < 1 / INR len <= 2 / (INR len + 1)).
    { split; [apply Rdiv_lt_0_compat; lra|]. apply Rmult_le_reg_r with (INR len * (INR len + 1)); [nra|].
      replace (1 / INR len * (INR len * (INR len + 1))) with (INR len + 1) by (field; lra).
      replace (2 / (INR len + 1) * (INR len * (INR len + 1))) with (2 * INR len) by (field; lra). lra. }
    pose proof (ema_val_err log10 M len (1 / INR len) (rma_alpha_of len) vs HM B L L' FA HA A1 A2) as H. change (NR log10) with N124 in H.
    destruct (Rsmooth (1 / INR len) len (map B2R vs)) as [E|]; [|exact H]. destruct H as (e & H1 & H2 & H3 & H4). exists e. split; [exact H1|]. split; [exact H2|]. split; [|exact H4].
    eapply Rle_trans; [exact H3|]. right. unfold u64. replace (bpow radix2 (-53)) with (/ 2 ^ 53) by (cbn; lra). field. lra.
  Qed.
  Lemma ema_val_near len M vs : (2 <= len)%nat -> (Z.of_nat len <= 2 ^ 32)%Z -> magnitude M -> bounded_by M vs ->
    match Rsmooth (2 / (INR len + 1)) len (map B2R vs) with
    | None => ema_val (ema_alpha_of len) len vs = None
    | Some E => exists e, ema_val (ema_alpha_of len) len vs = Some e /\ is_finite e = true /\ Rabs (B2R e - E) <= (INR len + 1) * M / 2 ^ 49 /\ Rabs E <= M
    end.
  Proof.
    intros L L' HM B. pose proof (IL32 _ L') as IL. assert (P : 2 <= INR len) by (apply (le_INR 2); exact L).
    destruct (int_plus_1 log10 len L') as [F1 E1]. destruct (f64_ofZ_correct 2 ltac:(lia)) as [E2 F2].
    destruct (weight_near log10 (f64_ofZ 2) _ 2 (INR len + 1) F2 F1 E2 E1) as (FA & HA & A1); [lra|replace (2 ^ 33) with 8589934592 by ring; lra|].
    assert (A2 : 0 < 2 / (INR len + 1) <= 2 / (INR len + 1)) by (split; [apply Rdiv_lt_0_compat; lra|apply Rle_refl]).
    pose proof (ema_val_err log10 M len (2 / (INR len + 1)) (ema_alpha_of len) vs HM B L L' FA HA A1 A2) as H. change (NR log10) with N124 in H.
    destruct (Rsmooth (2 / (INR len + 1)) len (map B2R vs)) as [E|]; [|exact H]. destruct H as (e & H1 & H2 & H3 & H4). exists e. split; [exact H1|]. split; [exact H2|]. split; [|exact H4].
    eapply Rle_trans; [exact H3|]. right. unfold u64. replace (bpow radix2 (-53)) with (/ 2 ^ 53) by (cbn; lra). field. lra.
  Qed.
  (** Averaging computed numbers [vs] that are within [d] of the real numbers [rs]. *)
  Lemma rma_of_near len M d vs rs : (2 <= len)%nat -> (Z.of_nat len <= 2 ^ 32)%Z -> magnitude M -> bounded_by M vs -> Forall2 (within d) (map B2R vs) rs ->
    match Rsmooth (1 / INR len) len rs with
    | None => ema_val (rma_alpha_of len) len vs = None
    | Some E => exists e, ema_val (rma_alpha_of len) len vs = Some e /\ is_finite e = true /\ Rabs (B2R e - E) <= INR len * M / 2 ^ 48 + d
    end.
  Proof.
    intros L L' HM B H. pose proof (rma_val_near len M vs L L' HM B) as X. assert (P : 2 <= INR len) by (apply (le_INR 2); exact L).
    pose proof (Rsmooth_within (1 / INR len) len d _ _ ltac:(lia) (inv_len_range len ltac:(lia)) H) as Y.
    destruct (Rsmooth (1 / INR len) len (map B2R vs)) as [E|], (Rsmooth (1 / INR len) len rs) as [E'|]; try contradiction; [|exact X].
    destruct X as (e & H1 & H2 & H3 & _). exists e. split; [exact H1|]. split; [exact H2|]. replace (B2R e - E') with ((B2R e - E) + (E - E')) by ring.
    eapply Rle_trans; [apply Rabs_triang|]. unfold within in Y. lra.
  Qed.
  Lemma two_over len : (1 <= len)%nat -> 0 <= 2 / (INR len + 1) <= 1.
  Proof.
    intros L. assert (1 <= INR len) by (apply (le_INR 1); exact L). split; [apply Rlt_le, Rdiv_lt_0_compat; lra|].
    apply (Rmult_le_reg_r (INR len + 1)); [lra|]. unfold Rdiv. rewrite Rmult_assoc, Rinv_l by lra. lra.
  Qed.
  Lemma ema_of_near len M d vs rs : (2 <= len)%nat -> (Z.of_nat len <= 2 ^ 32)%Z -> magnitude M -> bounded_by M vs -> Forall2 (within d) (map B2R vs) rs ->
    match Rsmooth (2 / (INR len + 1)) len rs with
    | None => ema_val (ema_alpha_of len) len vs = None
    | Some E => exists e, ema_val (ema_alpha_of len) len vs = Some e /\ is_finite e = true /\ Rabs (B2R e - E) <= (INR len + 1) * M / 2 ^ 49 + d
    end.
  Proof.
    intros L L' HM B H. pose proof (ema_val_near len M vs L L' HM B) as X. assert (P : 2 <= INR len) by (apply (le_INR 2); exact L).
    pose proof (Rsmooth_within (2 / (INR len + 1)) len d _ _ ltac:(lia) (two_over len ltac:(lia)) H) as Y.
    destruct (Rsmooth (2 / (INR len + 1)) len (map B2R vs)) as [E|], (Rsmooth (2 / (INR len + 1)) len rs) as [E'|]; try contradiction; [|exact X].
    destruct X as (e & H1 & H2 & H3 & _). exists e. split; [exact H1|]. split; [exact H2|]. replace (B2R e - E') with ((B2R e - E) + (E - E')) by ring.
    eapply Rle_trans; [apply Rabs_triang|]. unfold within in Y. lra.
  Qed.
  Lemma scale_facts M : scale M -> magnitude M /\ magnitude (4 * M) /\ 0 < M /\ M <= bpow radix2 890.
  Proof.
    intros [A B]. pose proof (bpow_gt_0 radix2 (-900)). unfold magnitude. assert (bpow radix2 890 * 4 <= bpow radix2 900).
    { change 4 with (bpow radix2 2). rewrite <- bpow_plus. apply bpow_le. lia. } lra.
  Qed.

  (** ** Atr *)
  (** The exact true ranges of a series of bars. *)
  Fixpoint true_ranges (prev : option rbar5) (rs : list rbar5) : list R :=
    match rs with [] => [] | r :: rs => real_range prev r :: true_ranges (Some r) rs end.
  Lemma true_ranges_nth rs : forall prev i r, nth_error rs i = Some r ->
    nth_error (true_ranges prev rs) i = Some (real_range (match i with O => prev | S j => nth_error rs j end) r).
  Proof.
    induction rs as [|x rs IH]; intros prev i r H; [destruct i; discriminate H|]. destruct i as [|i]; cbn [nth_error true_ranges] in *; [injection H as ->; reflexivity|].
    rewrite (IH _ _ _ H). destruct i; reflexivity.
  Qed.
  Lemma true_ranges_length rs : forall prev, length (true_ranges prev rs) = length rs.
  Proof. induction rs as [|x rs IH]; intros prev; cbn [true_ranges length]; [reflexivity|]. rewrite IH. reflexivity. Qed.
  Lemma true_ranges_firstn rs : forall prev n, true_ranges prev (firstn n rs) = firstn n (true_ranges prev rs).
  Proof. induction rs as [|x rs IH]; intros prev [|n]; cbn [firstn true_ranges]; try reflexivity. rewrite IH. reflexivity. Qed.

  Definition bar_within (M : R) (b : bar f64) : Prop :=
    exists o h l c, b_open b = Some o /\ b_high b = Some h /\ b_low b = Some l /\ b_close b = Some c /\ bounded_by M [o; h; l; c].
  Lemma within_moderate M b : scale M -> bar_within M b -> moderate_bar b.
  Proof.
    intros HM (o & h & l & c & E1 & E2 & E3 & E4 & B). exists o, h, l, c. split; [exact E1|]. split; [exact E2|]. split; [exact E3|]. split; [exact E4|].
    assert (G : forall x, In x [o; h; l; c] -> moderate x).
    { intros x I. unfold bounded_by in B. rewrite Forall_forall in B. destruct (B x I) as [F A]. split; [exact F|]. eapply Rle_trans; [exact A|].
      destruct HM as [_ HM]. eapply Rle_trans; [exact HM|]. apply bpow_le. lia. }
    split; [apply G; cbn; auto|]. split; [apply G; cbn; auto|]. split; apply G; cbn; auto.
  Qed.
  Lemma within_real M b : bar_within M b -> Rabs (rh (real_bar b)) <= M /\ Rabs (rl (real_bar b)) <= M /\ Rabs (rc (real_bar b)) <= M.
  Proof.
    intros (o & h & l & c & E1 & E2 & E3 & E4 & B). unfold real_bar. cbn [rh rl rc]. rewrite E2, E3, E4. cbn [value_of]. unfold bounded_by in B. rewrite Forall_forall in B.
    split; [apply (B h); cbn; auto|]. split; [apply (B l); cbn; auto|apply (B c); cbn; auto].
  Qed.
  Lemma range_bound M prev b : bar_within M b -> (forall p, prev = Some p -> bar_within M p) -> 0 <= M -> Rabs (real_range (option_map real_bar prev) (real_bar b)) <= 2 * M.
  Proof.
    intros Hb Hp PM. destruct (within_real _ _ Hb) as (A1 & A2 & A3). apply Rabs_def2' in A1, A2.
    unfold real_range. destruct prev as [p|]; cbn [option_map]; [|apply Rabs_le; lra].
    destruct (within_real _ _ (Hp p eq_refl)) as (_ & _ & A4). apply Rabs_def2' in A4.
    assert (G : forall x y, -M <= x <= M -> - M <= y <= M -> 0 <= Rabs (x - y) <= 2 * M) by (intros x y ? ?; split; [apply Rabs_pos|apply Rabs_le; lra]).
    pose proof (G _ _ A1 A4) as G1. pose proof (G _ _ A2 A4) as G2. apply Rabs_le. unfold Rmax at 1 3.
    destruct (Rle_dec _ (Rabs (rl (real_bar b) - rc (real_bar p)))); [lra|]. unfold Rmax. destruct (Rle_dec (rh (real_bar b) - rl (real_bar b)) _); lra.
  Qed.

  Theorem C124_atr len c bs M : (2 <= len)%nat -> (Z.of_nat len <= 2 ^ 32)%Z -> scale M -> Forall (bar_within M) bs ->
    Forall (fun b => rl (real_bar b) <= rh (real_bar b)) bs -> fresh_over c bs ->
    exists os, run_new (atr_new len) atr_step c (ticks (length bs)) = Ok os /\ length os = length bs /\
    forall i, (i < length bs)%nat ->
      match Rsmooth (1 / INR len) len (true_ranges None (firstn (S i) (map real_bar bs))) with
      | None => nth_error os i = Some None
      | Some e => exists v, nth_error os i = Some (Some v) /\ is_finite v = true /\ Rabs (B2R v - e) <= (INR len + 1) * M / 2 ^ 46
      end.
  Proof.
    intros L L' HM W O H. destruct (scale_facts _ HM) as (M1 & M4 & PM & _).
    assert (WM : Forall moderate_bar bs) by (revert W; apply Forall_impl; intros b; apply within_moderate, HM).
    assert (HL : Forall has_hl bs) by exact (whole_hl _ _ _ (moderate_whole _ WM)).
    destruct (C123_tr log10 true c bs WM O H) as (ts & RT & LT & X). change (N123 log10) with N124 in *.
    rewrite (PContent1.tr_run true c bs H HL) in RT. injection RT as RT.
    destruct (PContent1.atr_run len c bs ltac:(lia) H HL) as (s & ES & RA). unfold run_new. rewrite ES. cbn [rbind]. rewrite RA.
    eexists. split; [reflexivity|]. split; [apply length_each_prefix|]. intros i Hi. rewrite nth_error_each_prefix by exact Hi.
    (* the computed true ranges *)
    assert (T : exists vs, ts = map Some vs /\ Forall2 (fun v r => is_finite v = true /\ Rabs (B2R v - r) <= u64 * (2 * M) /\ Rabs r <= 2 * M) vs (true_ranges None (map real_bar bs))).
    { apply all_present; [rewrite LT, true_ranges_length, map_length; reflexivity|]. intros j r Hr.
      assert (Lj : (j < length bs)%nat) by (rewrite <- (map_length real_bar bs), <- (true_ranges_length (map real_bar bs) None); apply nth_error_Some; rewrite Hr; discriminate).
      destruct (nth_error bs j) as [b|] eqn:Hb; [|apply nth_error_None in Hb; lia]. rewrite (true_ranges_nth _ None j _ (map_nth_error real_bar _ _ Hb)) in Hr. injection Hr as <-.
      destruct (nth_error ts j) as [o|] eqn:Ho; [|apply nth_error_None in Ho; lia]. specialize (X j b o Hb Ho). rewrite Forall_forall in W.
      assert (RB : forall prev, (forall p, prev = Some p -> In p bs) -> Rabs (real_range (option_map real_bar prev) (real_bar b)) <= 2 * M).
      { intros prev Hp. apply range_bound; [apply W, (nth_error_In _ _ Hb)|intros p E; apply W, Hp, E|lra]. }
      assert (G : exists v rp, o = Some v /\ PropRatio.accurate 1 0 v (real_range rp (real_bar b)) /\ rp = match j with O => None | S k => nth_error (map real_bar bs) k end /\ Rabs (real_range rp (real_bar b)) <= 2 * M).
      { destruct j as [|j].
        - destruct X as (x & -> & A). exists x, None. split; [reflexivity|]. split; [exact A|]. split; [reflexivity|]. apply (RB None). intros p E; discriminate E.
        - destruct X as (p & x & Hp & -> & A). exists x, (Some (real_bar p)). split; [reflexivity|]. split; [exact A|]. split; [symmetry; apply map_nth_error, Hp|].
          apply (RB (Some p)). intros p' E. injection E as <-. exact (nth_error_In _ _ Hp). }
      destruct G as (v & rp & -> & [F A] & <- & B2). exists v. split; [reflexivity|]. split; [exact F|]. split; [|exact B2].
      rewrite grown_1 in A. cbn [INR] in A. rewrite Rmult_0_l, Rplus_0_r in A. eapply Rle_trans; [exact A|]. apply Rmult_le_compat_l; [apply Rlt_le, u64_pos|exact B2]. }
    destruct T as (vs & ET & T). rewrite ET in RT. unfold PContent1.atr_out, ema_out.
    assert (EP : present (each_prefix (PContent1.tr_out true) (firstn (S i) bs)) = firstn (S i) vs).
    { rewrite each_prefix_firstn, RT, firstn_map. apply present_somes. }
    rewrite EP, true_ranges_firstn. apply (Forall2_firstn' _ (S i)) in T.
    assert (U3 : u64 <= / 1000) by (unfold u64; apply Rle_trans with (bpow radix2 (-10)); [apply bpow_le; lia|cbn; lra]).
    assert (BV : bounded_by (4 * M) (firstn (S i) vs)).
    { revert T. apply Forall2_left. intros v r (F & A & B). split; [exact F|]. replace (B2R v) with ((B2R v - r) + r) by ring. eapply Rle_trans; [apply Rabs_triang|]. nra. }
    assert (NV : Forall2 (within (u64 * (2 * M))) (map B2R (firstn (S i) vs)) (firstn (S i) (true_ranges None (map real_bar bs)))).
    { apply Forall2_map_l. revert T. apply Forall2_impl'. intros v r (_ & A & _). exact A. }
    pose proof (rma_of_near len (4 * M) _ _ _ L L' M4 BV NV) as Y.
    destruct (Rsmooth (1 / INR len) len (firstn (S i) (true_ranges None (map real_bar bs)))) as [e|].
    - destruct Y as (v & Y1 & Y2 & Y3). exists v. split; [f_equal; exact Y1|]. split; [exact Y2|]. eapply Rle_trans; [exact Y3|].
      unfold u64. replace (bpow radix2 (-53)) with (/ 2 ^ 53) by (cbn; lra). assert (2 <= INR len) by (apply (le_INR 2); exact L).
      replace (INR len * (4 * M) / 2 ^ 48 + / 2 ^ 53 * (2 * M)) with ((INR len + / 64) * M / 2 ^ 46) by field.
      unfold Rdiv. apply Rmult_le_compat_r; [apply Rlt_le, Rinv_0_lt_compat, pow_lt; lra|]. apply Rmult_le_compat_r; lra.
    - f_equal. exact Y.
  Qed.

  (** ** Rsi *)
  Fixpoint steps {A} (l : list A) : list (A * A) := match l with a :: ((b :: _) as t) => (a, b) :: steps t | _ => [] end.
  Lemma steps_snoc {A} (l : list A) a b : steps (l ++ [a; b]) = steps (l ++ [a]) ++ [(a, b)].
  Proof.
    induction l as [|x l IH]; [reflexivity|]. destruct l as [|y l]; [reflexivity|].
    cbn [app steps] in *. rewrite IH. reflexivity.
  Qed.
  Lemma diffs_steps (vs : list f64) : diffs (map B2R vs) = map (fun p => B2R (snd p) - B2R (fst p)) (steps vs).
  Proof. induction vs as [|a vs IH]; [reflexivity|]. destruct vs as [|b vs]; [reflexivity|]. cbn [map diffs steps fst snd] in *. rewrite IH. reflexivity. Qed.
  Lemma present_app' {A} (l m : list (option A)) : present (l ++ m) = present l ++ present m.
  Proof. induction l as [|[x|] l IH]; cbn; [reflexivity| |exact IH]. rewrite IH. reflexivity. Qed.
  Lemma gains_steps (vs : list f64) : present (gains (map Some vs)) = map (fun p => fmax (fsub (snd p) (fst p)) (fZ 0)) (steps vs).
  Proof.
    induction vs as [|b vs IH] using rev_ind; [reflexivity|]. rewrite map_app. cbn [map]. rewrite gains_snoc, present_app', IH.
    destruct vs as [|a vs] using rev_ind; [reflexivity|]. clear IHvs. rewrite map_app, <- app_assoc. cbn [map app].
    rewrite newest_snoc. cbn [join rsi_gain]. rewrite steps_snoc, map_app. reflexivity.
  Qed.
  Lemma losses_steps (vs : list f64) : present (losses (map Some vs)) = map (fun p => fneg (fmin (fsub (snd p) (fst p)) (fZ 0))) (steps vs).
  Proof.
    induction vs as [|b vs IH] using rev_ind; [reflexivity|]. rewrite map_app. cbn [map]. rewrite losses_snoc, present_app', IH.
    destruct vs as [|a vs] using rev_ind; [reflexivity|]. clear IHvs. rewrite map_app, <- app_assoc. cbn [map app].
    rewrite newest_snoc. cbn [join rsi_loss]. rewrite steps_snoc, map_app. reflexivity.
  Qed.
  Lemma steps_in {A} (l : list A) p : In p (steps l) -> In (fst p) l /\ In (snd p) l.
  Proof.
    induction l as [|a l IH]; [intros []|]. destruct l as [|b l]; [intros []|]. intros [<-|H]; [cbn; auto|]. destruct (IH H) as [H1 H2]. split; right; assumption.
  Qed.
  (** One move. *)
  Lemma move_near M (a b : f64) : scale M -> bounded_by M [a; b] ->
    let d := B2R b - B2R a in
    let g := fmax (fsub b a) (fZ 0) in let l := fneg (fmin (fsub b a) (fZ 0)) in
    (is_finite g = true /\ Rabs (B2R g - Rmax d 0) <= u64 * (2 * M) /\ 0 <= B2R g <= 4 * M) /\
    (is_finite l = true /\ Rabs (B2R l - Rmax (- d) 0) <= u64 * (2 * M) /\ 0 <= B2R l <= 4 * M).
  Proof.
    intros HM B d g l. destruct (scale_facts _ HM) as (_ & _ & PM & BM). inversion B as [|? ? [Fa Ha] B']; subst. inversion B' as [|? ? [Fb Hb] _]; subst.
    assert (BB : bpow radix2 890 <= bpow radix2 900) by (apply bpow_le; lia).
    destruct (sub_accurate log10 b a) as [[F A] _]; [split; [exact Fb|lra]|split; [exact Fa|lra]|]. change (N123 log10) with N124 in *. fold d in A.
    rewrite grown_1 in A. cbn [INR] in A. rewrite Rmult_0_l, Rplus_0_r in A.
    apply Rabs_def2' in Ha. apply Rabs_def2' in Hb. assert (D : Rabs d <= 2 * M) by (unfold d; apply Rabs_le; lra).
    assert (U3 : u64 <= / 1000) by (unfold u64; apply Rle_trans with (bpow radix2 (-10)); [apply bpow_le; lia|cbn; lra]). pose proof u64_pos as U0.
    assert (A2 : Rabs (B2R (fsub b a) - d) <= u64 * (2 * M)) by nra. clear A. set (e := u64 * (2 * M)) in *. assert (E0 : 0 <= e <= M) by (unfold e; nra).
    set (x := fsub b a) in *. apply Rabs_def2' in A2. apply Rabs_def2' in D.
    pose proof (max_exact log10 x (fZ 0)) as XM. pose proof (min_exact log10 x (fZ 0)) as XN. change (N112 log10) with N124 in XM, XN.
    change (to_xr (@fZ f64 N124 0)) with (Fin 0) in XM, XN. rewrite (to_xr_finite _ F) in XM, XN. rewrite fin_max in XM. rewrite fin_min in XN.
    assert (FM : is_finite (fmax x (fZ 0)) = true) by (unfold fmax; destruct (fisnan x), (fisnan (fZ 0)), (fltb x (fZ 0)); first [exact F|reflexivity]).
    assert (FN : is_finite (fmin x (fZ 0)) = true) by (unfold fmin; destruct (fisnan x), (fisnan (fZ 0)), (fltb (fZ 0) x); first [exact F|reflexivity]).
    rewrite (to_xr_finite _ FM) in XM. rewrite (to_xr_finite _ FN) in XN. apply PropDrift.fin_eq in XM. apply PropDrift.fin_eq in XN.
    assert (FL : is_finite l = true) by (unfold l; change (fneg (fmin x (fZ 0))) with (Bopp (fmin x (fZ 0))); rewrite is_finite_Bopp; exact FN).
    assert (VL : B2R l = - Rmin (B2R x) 0) by (unfold l; change (fneg (fmin x (fZ 0))) with (Bopp (fmin x (fZ 0))); rewrite B2R_Bopp, XN; reflexivity).
    split; (split; [assumption|]).
    - unfold g. rewrite XM. unfold Rmax. destruct (Rle_dec (B2R x) 0), (Rle_dec d 0); (split; [apply Rabs_le; lra|lra]).
    - rewrite VL. unfold Rmin, Rmax. destruct (Rle_dec (B2R x) 0), (Rle_dec (- d) 0); (split; [apply Rabs_le; lra|lra]).
  Qed.

  (** The last three operations: [100 - 100 / y]. *)
  Lemma hundred_minus (y : f64) z t : 0 <= z <= 1 -> (y = B754_infinity false /\ z <= t \/ is_finite y = true /\ 1 <= B2R y /\ Rabs (/ B2R y - z) <= t) ->
    is_finite (fsub (fZ 100) (fdiv (fZ 100) y)) = true /\ Rabs (B2R (fsub (fZ 100) (fdiv (fZ 100) y)) - (100 - 100 * z)) <= 100 * t + 203 * u64.
  Proof.
    intros Hz H. pose proof u64_pos as U0. pose proof eta64_pos as T0.
    assert (TU : 1000000 * eta64 <= u64) by (unfold eta64, u64; apply Rle_trans with (bpow radix2 20 * bpow radix2 (-1075)); [apply Rmult_le_compat_r; [apply bpow_ge_0|cbn; lra]|rewrite <- bpow_plus; apply bpow_le; lia]).
    assert (U3 : u64 <= / 1000) by (unfold u64; apply Rle_trans with (bpow radix2 (-10)); [apply bpow_le; lia|cbn; lra]).
    destruct (f64_ofZ_correct 100 ltac:(lia)) as [Vh Fh]. change (IZR 100) with 100 in Vh.
    assert (BIG : 1000 <= bpow radix2 1022) by (apply Rle_trans with (bpow radix2 10); [cbn; lra|apply bpow_le; lia]).
    assert (Q : is_finite (fdiv (fZ 100) y) = true /\ Rabs (B2R (fdiv (fZ 100) y) - 100 * z) <= 100 * t + 100 * u64 + eta64 /\ Rabs (B2R (fdiv (fZ 100) y)) <= 101).
    { destruct H as [[-> Ht]|(Fy & Gy & Ht)].
      - change (fdiv (fZ 100) (B754_infinity false)) with (B754_zero false : f64). split; [reflexivity|]. cbn [B2R]. rewrite Rabs_R0. split; [|lra]. apply Rabs_le. lra.
      - assert (I0 : 0 < / B2R y) by (apply Rinv_0_lt_compat; lra). assert (I1 : / B2R y <= 1) by (rewrite <- Rinv_1; apply Rinv_le_contravar; lra).
        assert (A : Rabs (100 / B2R y) <= 100) by (unfold Rdiv; apply Rabs_le; lra).
        destruct (div_near (f64_ofZ 100) y Fh Fy) as [Fd Hd]; [lra|rewrite Vh; lra|]. change (Bdiv mode_NE (f64_ofZ 100) y) with (fdiv (fZ 100) y) in *. rewrite Vh in Hd. split; [exact Fd|].
        assert (Hd' : Rabs (B2R (fdiv (fZ 100) y) - 100 / B2R y) <= u64 * 100 + eta64) by (eapply Rle_trans; [exact Hd|]; nra). apply Rabs_def2' in Hd'. apply Rabs_def2' in A. apply Rabs_def2' in Ht.
        unfold Rdiv in *. split; apply Rabs_le; lra. }
    destruct Q as (Fq & Hq & Bq). pose proof Bq as Bq'. apply Rabs_def2' in Bq'.
    destruct H as [H|H].
    - assert (X : B2R (fdiv (fZ 100) y) = 0) by (destruct H as [-> _]; reflexivity).
      destruct (minus_near (f64_ofZ 100) (fdiv (fZ 100) y) Fh Fq) as [Fr Hr]; [rewrite Vh, X; apply Rabs_le; lra|]. change (Bminus mode_NE (f64_ofZ 100) (fdiv (fZ 100) y)) with (fsub (fZ 100) (fdiv (fZ 100) y)) in *.
      split; [exact Fr|]. rewrite Vh, X, Rminus_0_r, (Rabs_pos_eq 100) in Hr by lra. apply Rabs_def2' in Hr. destruct H as [_ H]. apply Rabs_le. lra.
    - destruct (minus_near (f64_ofZ 100) (fdiv (fZ 100) y) Fh Fq) as [Fr Hr]; [rewrite Vh; apply Rabs_le; lra|]. change (Bminus mode_NE (f64_ofZ 100) (fdiv (fZ 100) y)) with (fsub (fZ 100) (fdiv (fZ 100) y)) in *.
      split; [exact Fr|]. rewrite Vh in Hr. assert (P : 0 <= B2R (fdiv (fZ 100) y)).
      { destruct H as (Fy & Gy & _). destruct (div_within log10 (f64_ofZ 0) (f64_ofZ 100) (f64_ofZ 100) y Fh Fy) as [_ W]; [lra| |change (B2R (f64_ofZ 0)) with 0 in W; exact (proj1 W)].
        change (B2R (f64_ofZ 0)) with 0. rewrite Vh. assert (I0 : 0 < / B2R y) by (apply Rinv_0_lt_compat; lra). assert (I1 : / B2R y <= 1) by (rewrite <- Rinv_1; apply Rinv_le_contravar; lra). unfold Rdiv. lra. }
      assert (Hr' : Rabs (B2R (fsub (fZ 100) (fdiv (fZ 100) y)) - (100 - B2R (fdiv (fZ 100) y))) <= u64 * 100 + eta64).
      { eapply Rle_trans; [exact Hr|]. apply Rplus_le_compat_r, Rmult_le_compat_l; [lra|]. apply Rabs_le. lra. }
      apply Rabs_def2' in Hr'. apply Rabs_def2' in Hq. apply Rabs_le. lra.
  Qed.

  (** The relative strength index of two computed averages. *)
  Lemma rsi_computed (u d : f64) : is_finite u = true -> is_finite d = true -> pz u -> pz d -> 0 < B2R u + B2R d ->
    let r := fsub (fZ 100) (fdiv (fZ 100) (fadd (fZ 1) (fdiv u d))) in
    is_finite r = true /\ Rabs (B2R r - 100 * (B2R u / (B2R u + B2R d))) <= 503 * u64.
  Proof.
    intros Fu Fd Pu Pd Ps r. pose proof (B2R_pz _ Pu) as Gu. pose proof (B2R_pz _ Pd) as Gd. pose proof u64_pos as U0. pose proof eta64_pos as T0.
    assert (TU : 1000000 * eta64 <= u64) by (unfold eta64, u64; apply Rle_trans with (bpow radix2 20 * bpow radix2 (-1075)); [apply Rmult_le_compat_r; [apply bpow_ge_0|cbn; lra]|rewrite <- bpow_plus; apply bpow_le; lia]).
    assert (U3 : u64 <= / 1000) by (unfold u64; apply Rle_trans with (bpow radix2 (-10)); [apply bpow_le; lia|cbn; lra]).
    set (z := B2R d / (B2R u + B2R d)). assert (Hz : 0 <= z <= 1).
    { unfold z. split; [apply Rmult_le_pos; [exact Gd|apply Rlt_le, Rinv_0_lt_compat, Ps]|]. apply (Rmult_le_reg_r (B2R u + B2R d)); [exact Ps|]. unfold Rdiv. rewrite Rmult_assoc, Rinv_l by lra. lra. }
    replace (100 * (B2R u / (B2R u + B2R d))) with (100 - 100 * z) by (unfold z; field; lra).
    enough (C : fadd (fZ 1) (fdiv u d) = B754_infinity false /\ z <= 3 * u64 \/ is_finite (fadd (fZ 1) (fdiv u d)) = true /\ 1 <= B2R (fadd (fZ 1) (fdiv u d)) /\ Rabs (/ B2R (fadd (fZ 1) (fdiv u d)) - z) <= 3 * u64).
    { destruct (hundred_minus _ z _ Hz C) as [F H]. split; [exact F|]. eapply Rle_trans; [exact H|]. lra. }
    destruct (Req_dec (B2R d) 0) as [D0|D0].
    - left. split; [|unfold z; rewrite D0; unfold Rdiv; rewrite Rmult_0_l; lra].
      assert (U1 : 0 < B2R u) by lra. destruct d as [s|s| |s m e Hb]; try discriminate Fd.
      + destruct Pd as [Pd|Pd]; [discriminate Pd|]. cbn in Pd. subst s. destruct u as [s|s| |s m e Hb]; try discriminate Fu; [cbn in U1; lra|]. destruct Pu as [Pu|Pu]; [discriminate Pu|]. cbn in Pu. subst s. reflexivity.
      + exfalso. cbn in D0. apply eq_0_F2R in D0. destruct s; discriminate D0.
    - assert (D1 : 0 < B2R d) by lra. pose proof (div_rounded u d Fu Fd D1) as QR. change (Bdiv mode_NE u d) with (fdiv u d) in QR. set (q := fdiv u d) in *.
      set (x := B2R u / B2R d) in *. assert (X0 : 0 <= x) by (apply Rmult_le_pos; [exact Gu|apply Rlt_le, Rinv_0_lt_compat, D1]).
      assert (ZX : z = / (1 + x)) by (unfold z, x; field; lra). destruct (f64_ofZ_correct 1 ltac:(lia)) as [V1 F1]. change (IZR 1) with 1 in V1.
      destruct (Rle_dec x (bpow radix2 1000)) as [B|B].
      + destruct (div_near u d Fu Fd D0) as [Fq Hq]; [fold x; rewrite Rabs_pos_eq by exact X0; eapply Rle_trans; [exact B|apply bpow_le; lia]|]. change (Bdiv mode_NE u d) with q in *. fold x in Hq. rewrite (Rabs_pos_eq x X0) in Hq.
        apply Rabs_def2' in Hq. assert (Pq : 0 <= B2R q) by (apply B2R_pz; apply (div_pz log10); assumption).
        assert (BB : 4 * bpow radix2 1000 = bpow radix2 1002) by (change 4 with (bpow radix2 2); rewrite <- bpow_plus; reflexivity).
        assert (B1 : 1 <= bpow radix2 1000) by (change 1 with (bpow radix2 0); apply bpow_le; lia). assert (BL : bpow radix2 1002 <= bpow radix2 1022) by (apply bpow_le; lia).
        destruct (plus_near (f64_ofZ 1) q F1 Fq) as [Fy Hy]; [rewrite V1; apply Rabs_le; nra|]. change (Bplus mode_NE (f64_ofZ 1) q) with (fadd (fZ 1) q) in *. rewrite V1, (Rabs_pos_eq (1 + B2R q)) in Hy by lra. apply Rabs_def2' in Hy.
        right. split; [exact Fy|]. set (y := B2R (fadd (fZ 1) q)) in *.
        assert (Y1 : 1 <= y).
        { destruct (pz_ge_one log10 q (div_pz log10 _ _ Pu Pd)) as [E|[_ G]]; [destruct (fadd (fZ 1) q); try discriminate Fy; reflexivity| |exact G]. exfalso. refine (_ (eq_trans (f_equal is_finite E : is_finite (fadd (fZ 1) q) = _) eq_refl)). intros E2. exact (Bool.diff_true_false (eq_trans (eq_sym Fy) E2)). }
        split; [exact Y1|]. rewrite ZX. replace (/ y - / (1 + x)) with (((1 + x) - y) * (/ y * / (1 + x))) by (field; lra).
        assert (E3 : Rabs ((1 + x) - y) <= 3 * u64 * (1 + x)) by (apply Rabs_le; nra).
        assert (I1 : 0 < / y <= 1) by (split; [apply Rinv_0_lt_compat; lra|rewrite <- Rinv_1; apply Rinv_le_contravar; lra]). assert (I2 : 0 < / (1 + x)) by (apply Rinv_0_lt_compat; lra).
        rewrite Rabs_mult, (Rabs_pos_eq (/ y * / (1 + x))) by nra.
        apply Rle_trans with (3 * u64 * (1 + x) * (/ y * / (1 + x))); [apply Rmult_le_compat_r; [nra|exact E3]|].
        replace (3 * u64 * (1 + x) * (/ y * / (1 + x))) with (3 * u64 * / y) by (field; lra). nra.
      + assert (BQ : PropTrend.big 1000 q) by (eapply PropTrend.big_rounded; [lia|exact QR|lra]).
        assert (BY : PropTrend.big 1000 (fadd (fZ 1) q)) by (apply (PropTrend.big_plus_r 1000 (f64_ofZ 1) q); [lia|exact BQ|right; reflexivity|reflexivity]).
        assert (S : / bpow radix2 1000 <= u64) by (rewrite <- bpow_opp; unfold u64; apply bpow_le; lia). pose proof (bpow_gt_0 radix2 1000) as BP.
        assert (Z1 : z <= u64) by (rewrite ZX; eapply Rle_trans; [|exact S]; apply Rinv_le_contravar; lra).
        destruct BY as [E|[Fy Ly]]; [left; split; [exact E|lra]|]. right. split; [exact Fy|]. assert (G1 : 1 <= bpow radix2 1000) by (change 1 with (bpow radix2 0); apply bpow_le; lia). split; [lra|].
        assert (I : 0 < / B2R (fadd (fZ 1) q) <= u64) by (split; [apply Rinv_0_lt_compat; lra|eapply Rle_trans; [apply Rinv_le_contravar; [exact BP|exact Ly]|exact S]]). apply Rabs_le. lra.
  Qed.

  Lemma moves_near M (vs : list f64) : scale M -> bounded_by M vs ->
    (bounded_by (4 * M) (present (gains (map Some vs))) /\ Forall2 (within (u64 * (2 * M))) (map B2R (present (gains (map Some vs)))) (Rgains (map B2R vs))) /\
    (bounded_by (4 * M) (present (losses (map Some vs))) /\ Forall2 (within (u64 * (2 * M))) (map B2R (present (losses (map Some vs)))) (Rlosses (map B2R vs))).
  Proof.
    intros HM B. rewrite gains_steps, losses_steps. unfold Rgains, Rlosses. rewrite diffs_steps, !map_map.
    assert (S : forall p, In p (steps vs) -> bounded_by M [fst p; snd p]).
    { intros p Hp. destruct (steps_in _ _ Hp) as [H1 H2]. unfold bounded_by in B. rewrite Forall_forall in B. constructor; [apply B, H1|]. constructor; [apply B, H2|constructor]. }
    revert S. generalize (steps vs). intros l S. induction l as [|[a b] l IH]; cbn [map fst snd]; [repeat split; constructor|].
    destruct (IH (fun p Hp => S p (or_intror Hp))) as ((I1 & I2) & (I3 & I4)).
    destruct (move_near M a b HM (S _ (or_introl eq_refl))) as ((G1 & G2 & G3) & (L1 & L2 & L3)). cbv zeta in *.
    split; (split; [constructor; [split; [assumption|rewrite Rabs_pos_eq; lra]|assumption]|constructor; [assumption|assumption]]).
  Qed.
  Lemma gap_moves U D u d e : 0 <= U -> 0 <= D -> 0 <= u -> 0 <= d -> Rabs (u - U) <= e -> Rabs (d - D) <= e -> 4 * e <= U + D -> 0 < e ->
    0 < u + d /\ Rabs (u / (u + d) - U / (U + D)) <= 2 * e / (U + D).
  Proof.
    intros PU PD Pu Pd HU HD H E. apply Rabs_def2' in HU. apply Rabs_def2' in HD. assert (S : (U + D) / 2 <= u + d) by lra. assert (P : 0 < U + D) by lra. split; [lra|].
    replace (u / (u + d) - U / (U + D)) with (((u - U) * D - U * (d - D)) * (/ (u + d) * / (U + D))) by (field; lra).
    assert (I1 : 0 < / (u + d)) by (apply Rinv_0_lt_compat; lra). assert (I2 : 0 < / (U + D)) by (apply Rinv_0_lt_compat; lra).
    rewrite Rabs_mult, (Rabs_pos_eq (/ (u + d) * / (U + D))) by nra.
    assert (N : Rabs ((u - U) * D - U * (d - D)) <= e * (U + D)) by (apply Rabs_le; nra).
    apply Rle_trans with (e * (U + D) * (/ (u + d) * / (U + D))); [apply Rmult_le_compat_r; [nra|exact N]|].
    replace (e * (U + D) * (/ (u + d) * / (U + D))) with (e * / (u + d)) by (field; lra).
    assert (I3 : / (u + d) <= 2 * / (U + D)) by (replace (2 * / (U + D)) with (/ ((U + D) / 2)) by (field; lra); apply Rinv_le_contravar; lra).
    unfold Rdiv. nra.
  Qed.
  Lemma Rgains_pos vs : Forall (fun x => 0 <= x) (Rgains vs) /\ Forall (fun x => 0 <= x) (Rlosses vs).
  Proof. split; apply Forall_forall; intros x Hx; apply in_map_iff in Hx; destruct Hx as (d & <- & _); apply Rmax_r. Qed.

  (** Whenever the average moves are not negligible compared with the rounding
      error [e] of an average, the index is finite and within
      [200 e / (up + down) + 2^-44] of the exact index. *)
  Theorem C124_rsi len c vs M : (2 <= len)%nat -> (Z.of_nat len <= 2 ^ 32)%Z -> scale M -> bounded_by M vs ->
    let e := (INR len + 1) * M / 2 ^ 46 in
    exists os, run_new (rsi_new len) rsi_step c (map Some vs) = Ok os /\ length os = length vs /\
    forall i, (i < length vs)%nat ->
      match Rsmooth (1 / INR len) len (Rgains (firstn (S i) (map B2R vs))), Rsmooth (1 / INR len) len (Rlosses (firstn (S i) (map B2R vs))) with
      | Some up, Some down => exists v, nth_error os i = Some (Some v) /\
          (4 * e <= up + down -> is_finite v = true /\ Rabs (B2R v - 100 * (up / (up + down))) <= 200 * e / (up + down) + / 2 ^ 44)
      | _, _ => nth_error os i = Some None
      end.
  Proof.
    intros L L' HM B e. destruct (scale_facts _ HM) as (_ & M4 & PM & _). rewrite (makes_run _ _ _ _ c _ (rsi_makes len L) (warmed_map_Some vs)).
    eexists. split; [reflexivity|]. split; [rewrite length_each_prefix, map_length; reflexivity|]. intros i Hi.
    rewrite nth_error_each_prefix by (rewrite map_length; exact Hi). rewrite !firstn_map.
    enough (G : forall h : list f64, bounded_by M h ->
      match Rsmooth (1 / INR len) len (Rgains (map B2R h)), Rsmooth (1 / INR len) len (Rlosses (map B2R h)) with
      | Some up, Some down => exists v, Some (rsi_out len (map Some h)) = Some (Some v) /\
          (4 * e <= up + down -> is_finite v = true /\ Rabs (B2R v - 100 * (up / (up + down))) <= 200 * e / (up + down) + / 2 ^ 44)
      | _, _ => Some (rsi_out len (map Some h)) = Some None
      end) by exact (G _ (Forall_firstn _ (S i) _ B)).
    clear i Hi. intros h Bh. destruct (moves_near M h HM Bh) as ((G1 & G2) & (L1 & L2)).
    pose proof (rma_of_near len (4 * M) _ _ (Rgains (map B2R h)) L L' M4 G1 G2) as YG. pose proof (rma_of_near len (4 * M) _ _ (Rlosses (map B2R h)) L L' M4 L1 L2) as YL.
    unfold rsi_out, ema_out. destruct (Rgains_pos (map B2R h)) as [P1 P2].
    assert (LR : 0 <= 1 / INR len <= 1) by (apply inv_len_range; lia).
    destruct (Rsmooth (1 / INR len) len (Rgains (map B2R h))) as [U|] eqn:EU; [|rewrite YG; reflexivity]. destruct YG as (u & Eu & Fu & Hu). rewrite Eu.
    destruct (Rsmooth (1 / INR len) len (Rlosses (map B2R h))) as [D|] eqn:ED; [|rewrite YL; reflexivity]. destruct YL as (d & Ed & Fd & Hd). rewrite Ed.
    cbn [rsi_val]. eexists. split; [reflexivity|]. intros H4.
    assert (EE : INR len * (4 * M) / 2 ^ 48 + u64 * (2 * M) <= e).
    { unfold e, u64. replace (bpow radix2 (-53)) with (/ 2 ^ 53) by (cbn; lra).
      replace (INR len * (4 * M) / 2 ^ 48 + / 2 ^ 53 * (2 * M)) with ((INR len + / 64) * M / 2 ^ 46) by field.
      unfold Rdiv. apply Rmult_le_compat_r; [apply Rlt_le, Rinv_0_lt_compat, pow_lt; lra|]. apply Rmult_le_compat_r; lra. }
    assert (E0 : 0 < e) by (unfold e; apply Rdiv_lt_0_compat; [apply Rmult_lt_0_compat; [pose proof (pos_INR len); lra|exact PM]|apply pow_lt; lra]).
    assert (Z53 : (Z.of_nat len <= 2 ^ 53)%Z) by (eapply Z.le_trans; [exact L'|]; apply Z.pow_le_mono_r; lia).
    assert (Pu : pz u) by (apply (rma_pz log10 len _ u L Z53 (gains_nz log10 (map Some h)) Eu)).
    assert (Pd : pz d) by (apply (rma_pz log10 len _ d L Z53 (losses_nz log10 (map Some h)) Ed)).
    assert (PU : 0 <= U) by (apply (Rsmooth_nonneg (1 / INR len) len _ U ltac:(lia) LR P1 EU)).
    assert (PD : 0 <= D) by (apply (Rsmooth_nonneg (1 / INR len) len _ D ltac:(lia) LR P2 ED)).
    destruct (gap_moves U D (B2R u) (B2R d) e PU PD (B2R_pz _ Pu) (B2R_pz _ Pd) ltac:(lra) ltac:(lra) H4 E0) as [S G].
    destruct (rsi_computed u d Fu Fd Pu Pd S) as [Fr Hr]. cbv zeta in *. split; [exact Fr|].
    match goal with |- Rabs (?x - ?y) <= _ => replace (x - y) with ((x - 100 * (B2R u / (B2R u + B2R d))) + 100 * (B2R u / (B2R u + B2R d) - U / (U + D))) by ring end.
    eapply Rle_trans; [apply Rabs_triang|]. rewrite Rabs_mult, (Rabs_pos_eq 100) by lra.
    assert (U5 : 503 * u64 <= / 2 ^ 44) by (unfold u64; replace (bpow radix2 (-53)) with (/ 2 ^ 53) by (cbn; lra); lra).
    replace (200 * e / (U + D)) with (100 * (2 * e / (U + D))) by (unfold Rdiv; ring). lra.
  Qed.

  (** ** Macd *)
  (** The exact line and the exact signal after the values [vs]. *)
  Definition Rmacd_line (vs : list R) : option R :=
    match Rsmooth (2 / 13) 12 vs, Rsmooth (2 / 27) 26 vs with Some s, Some l => Some (s - l) | _, _ => None end.
  Definition Rmacd_signal (vs : list R) : option R := Rsmooth (2 / 10) 9 (present (each_prefix Rmacd_line vs)).
  (** A computed output against an exact one. *)
  Definition close_to (d : R) (o : option f64) (r : option R) : Prop :=
    match r with None => o = None | Some e => exists v, o = Some v /\ is_finite v = true /\ Rabs (B2R v - e) <= d end.

  Definition line_out (h : list (option f64)) : option f64 := minus (ema_out (ema_alpha_of 12) 12 h) (ema_out (ema_alpha_of 26) 26 h).
  Lemma inr12 : INR 12 + 1 = 13. Proof. rewrite INR_IZR_INZ. cbn. lra. Qed.
  Lemma inr26 : INR 26 + 1 = 27. Proof. rewrite INR_IZR_INZ. cbn. lra. Qed.
  Lemma inr9 : INR 9 + 1 = 10. Proof. rewrite INR_IZR_INZ. cbn. lra. Qed.
  Lemma line_near M vs : scale M -> bounded_by M vs ->
    match Rmacd_line (map B2R vs) with
    | None => line_out (map Some vs) = None
    | Some e => exists v, line_out (map Some vs) = Some v /\ is_finite v = true /\ Rabs (B2R v - e) <= 41 * M / 2 ^ 49 /\ Rabs (B2R v) <= 4 * M
    end.
  Proof.
    intros HM B. destruct (scale_facts _ HM) as (M1 & _ & PM & BM). unfold Rmacd_line, line_out, ema_out. rewrite !present_somes.
    pose proof (ema_val_near 12 M vs ltac:(lia) ltac:(lia) M1 B) as Y1. pose proof (ema_val_near 26 M vs ltac:(lia) ltac:(lia) M1 B) as Y2. rewrite inr12 in Y1. rewrite inr26 in Y2.
    destruct (Rsmooth (2 / 13) 12 (map B2R vs)) as [s|]; [|rewrite Y1; reflexivity]. destruct Y1 as (x & E1 & F1 & H1 & B1). rewrite E1.
    destruct (Rsmooth (2 / 27) 26 (map B2R vs)) as [l|]; [|rewrite Y2; reflexivity]. destruct Y2 as (y & E2 & F2 & H2 & B2). rewrite E2.
    cbn [minus]. eexists. split; [reflexivity|]. apply Rabs_def2' in H1, H2, B1, B2.
    set (t := M / 2 ^ 49) in *. assert (T : 0 < t <= M / 1000) by (unfold t, Rdiv; split; [apply Rmult_lt_0_compat; [exact PM|apply Rinv_0_lt_compat, pow_lt; lra]|apply Rmult_le_compat_l; lra]).
    replace (13 * M / 2 ^ 49) with (13 * t) in H1 by (unfold t, Rdiv; ring). replace (27 * M / 2 ^ 49) with (27 * t) in H2 by (unfold t, Rdiv; ring).
    assert (BIG : 3 * M <= bpow radix2 1022).
    { apply Rle_trans with (4 * bpow radix2 890); [lra|]. change 4 with (bpow radix2 2). rewrite <- bpow_plus. apply bpow_le. lia. }
    destruct (minus_near x y F1 F2) as [F H]; [apply Rabs_le; lra|]. change (Bminus mode_NE x y) with (fsub x y) in *. split; [exact F|].
    destruct (magnitude_facts _ M1) as (_ & U0 & U1 & T0 & _).
    assert (D : Rabs (B2R x - B2R y) <= 3 * M) by (apply Rabs_le; lra).
    assert (H' : Rabs (B2R (fsub x y) - (B2R x - B2R y)) <= t).
    { eapply Rle_trans; [exact H|]. apply Rle_trans with (u64 * (3 * M) + u64 * M / 1000); [apply Rplus_le_compat; [apply Rmult_le_compat_l; [lra|exact D]|apply T0]|].
      unfold t. apply Rle_trans with (/ 2 ^ 53 * (4 * M)); [nra|]. lra. }
    apply Rabs_def2' in H', D. replace (41 * M / 2 ^ 49) with (41 * t) by (unfold t, Rdiv; ring). split; apply Rabs_le; lra.
  Qed.
  Lemma lines_near M vs : scale M -> bounded_by M vs ->
    Forall2 (within (41 * M / 2 ^ 49)) (map B2R (present (each_prefix line_out (map Some vs)))) (present (each_prefix Rmacd_line (map B2R vs))) /\
    bounded_by (4 * M) (present (each_prefix line_out (map Some vs))).
  Proof.
    intros HM. induction vs as [|x vs IH] using rev_ind; intros B; [split; constructor|]. pose proof B as B0. apply Forall_app in B. destruct B as [B _]. destruct (IH B) as [I1 I2].
    assert (Q1 : each_prefix line_out (map Some (vs ++ [x])) = each_prefix line_out (map Some vs) ++ [line_out (map Some (vs ++ [x]))]) by (rewrite map_app; cbn [map]; apply each_prefix_snoc).
    assert (Q2 : each_prefix Rmacd_line (map B2R (vs ++ [x])) = each_prefix Rmacd_line (map B2R vs) ++ [Rmacd_line (map B2R (vs ++ [x]))]) by (rewrite map_app; cbn [map]; apply each_prefix_snoc).
    rewrite Q1, Q2, !present_app', map_app. clear Q1 Q2.
    pose proof (line_near M (vs ++ [x]) HM B0) as Y. destruct (Rmacd_line (map B2R (vs ++ [x]))) as [e|].
    - destruct Y as (v & E & F & H & G). rewrite E. cbn [present map]. split; [apply Forall2_app; [exact I1|constructor; [exact H|constructor]]|].
      apply Forall_app. split; [exact I2|]. constructor; [split; [exact F|exact G]|constructor].
    - rewrite Y. cbn [present map]. rewrite !app_nil_r. split; assumption.
  Qed.
  Lemma ema_defined alpha len (vs : list f64) : (2 <= len)%nat -> (ema_val alpha len vs = None <-> (length vs < len)%nat).
  Proof. intros L. unfold ema_val. destruct (Nat.eqb_spec len 1); [lia|]. destruct (Nat.ltb_spec (length vs) len); split; intros Q; try lia; try reflexivity; discriminate Q. Qed.
  Lemma line_warmed vs : warmed (each_prefix line_out (map Some vs)).
  Proof.
    apply warmed_each_prefix. intros h x (t & E) _ H.
    assert (G : forall l n, (2 <= n)%nat -> (ema_out (ema_alpha_of n) n l = None <-> (length (present l) < n)%nat)) by (intros l n Hn; apply ema_defined, Hn).
    assert (P : (length (present h) <= length (present (h ++ [x])))%nat) by (rewrite present_app', app_length; lia).
    unfold line_out in *. pose proof (G h 12%nat ltac:(lia)) as A1. pose proof (G h 26%nat ltac:(lia)) as A2. pose proof (G (h ++ [x]) 12%nat ltac:(lia)) as A3. pose proof (G (h ++ [x]) 26%nat ltac:(lia)) as A4.
    destruct (ema_out (ema_alpha_of 12) 12 h) as [a|]; [|contradiction H; reflexivity]. destruct (ema_out (ema_alpha_of 26) 26 h) as [b|]; [|contradiction H; reflexivity].
    destruct (ema_out (ema_alpha_of 12) 12 (h ++ [x])) as [a'|]; [|exfalso; assert (X : (length (present h) < 12)%nat) by (pose proof (proj1 A3 eq_refl); lia); apply A1 in X; discriminate X].
    destruct (ema_out (ema_alpha_of 26) 26 (h ++ [x])) as [b'|]; [|exfalso; assert (X : (length (present h) < 26)%nat) by (pose proof (proj1 A4 eq_refl); lia); apply A2 in X; discriminate X].
    discriminate.
  Qed.

  (** The default Macd: line and signal stay within [M / 2^42] of the exact ones. *)
  Theorem C124_macd c bs vs M : scale M -> map b_close bs = map Some vs -> bounded_by M vs -> fresh_over c bs ->
    exists os, run_new macd_default macd_step c (ticks (length bs)) = Ok os /\ length os = length bs /\
    forall i, (i < length bs)%nat -> exists line signal, nth_error os i = Some (line, signal) /\
      close_to (M / 2 ^ 43) line (Rmacd_line (firstn (S i) (map B2R vs))) /\
      close_to (M / 2 ^ 42) signal (Rmacd_signal (firstn (S i) (map B2R vs))).
  Proof.
    intros HM EC B H. assert (LV : length bs = length vs) by (rewrite <- (map_length b_close bs), EC, map_length; reflexivity).
    destruct (scale_facts _ HM) as (M1 & M4 & PM & BM).
    assert (T : 0 < M / 2 ^ 49) by (apply Rdiv_lt_0_compat; [exact PM|apply pow_lt; lra]).
    rewrite (C58_macd_default c bs H), EC.
    rewrite (makes_run _ _ _ _ c _ (ema_makes 12 ltac:(lia)) (warmed_map_Some vs)). cbn [rbind]. rewrite (makes_run _ _ _ _ c _ (ema_makes 26 ltac:(lia)) (warmed_map_Some vs)). cbn [rbind].
    rewrite zip_each. change (fun x : list (option f64) => minus (ema_out (ema_alpha_of 12) 12 x) (ema_out (ema_alpha_of 26) 26 x)) with line_out.
    rewrite (makes_run _ _ _ _ c _ (ema_makes 9 ltac:(lia)) (line_warmed vs)). cbn [rbind]. eexists. split; [reflexivity|].
    split; [rewrite combine_length, !length_each_prefix, map_length; lia|]. intros i Hi. rewrite LV in Hi.
    do 2 eexists. split; [apply nth_error_combine; apply nth_error_each_prefix; rewrite ?length_each_prefix, map_length; exact Hi|].
    rewrite !firstn_map, <- each_prefix_firstn, firstn_map.
    enough (G : forall h : list f64, bounded_by M h -> close_to (M / 2 ^ 43) (line_out (map Some h)) (Rmacd_line (map B2R h)) /\
      close_to (M / 2 ^ 42) (ema_out (ema_alpha_of 9) 9 (each_prefix line_out (map Some h))) (Rmacd_signal (map B2R h))) by exact (G _ (Forall_firstn _ (S i) _ B)).
    clear i Hi. intros h Bh. split.
    - pose proof (line_near M h HM Bh) as Y. unfold close_to. destruct (Rmacd_line (map B2R h)) as [e|]; [|exact Y]. destruct Y as (v & E & F & A & _). exists v. split; [exact E|]. split; [exact F|].
      eapply Rle_trans; [exact A|]. lra.
    - destruct (lines_near M h HM Bh) as [N G]. pose proof (ema_of_near 9 (4 * M) _ _ _ ltac:(lia) ltac:(lia) M4 G N) as Y. rewrite inr9 in Y. unfold close_to, Rmacd_signal.
      destruct (Rsmooth (2 / 10) 9 (present (each_prefix Rmacd_line (map B2R h)))) as [e|]; [|exact Y]. destruct Y as (v & E & F & A). exists v. split; [exact E|]. split; [exact F|].
      eapply Rle_trans; [exact A|]. lra.
  Qed.
End C124.

(** Whole prices 1, 3, 2: the index of length 2 is within the bound of 200/3;
    and decimal bars meet the hypotheses of the other two theorems. *)
Lemma scale8 : scale 8.
Proof. split; [apply Rle_trans with (bpow radix2 0); [apply bpow_le; lia|cbn; lra]|]. replace 8 with (bpow radix2 3) by (cbn; lra). apply bpow_le. lia. Qed.
Lemma bound8_test (x : f64) : is_finite x = true -> Bleb (Babs x) (f64_ofZ 8) = true -> is_finite x = true /\ Rabs (B2R x) <= 8.
Proof.
  intros F B. split; [exact F|]. destruct (f64_ofZ_correct 8) as [V G]; [cbn; lia|]. apply le_test in B; [|rewrite is_finite_Babs; exact F|exact G].
  rewrite V, B2R_Babs in B. exact B.
Qed.
Definition vals124 : list f64 := map f64_ofZ [1; 3; 2]%Z.
Example C124_ex log10 (c : ctx f64) :
  exists os v, @run_new f64 _ _ _ (@rsi_new f64 (IEEE log10) 2) (@rsi_step f64 (IEEE log10)) c (map Some vals124) = Ok os /\ nth_error os 2 = Some (Some v) /\
    is_finite v = true /\ Rabs (B2R v - 200 / 3) <= / 2 ^ 34.
Proof.
  assert (B : bounded_by 8 vals124) by (repeat apply Forall_cons; [..|apply Forall_nil]; apply bound8_test; vm_compute; reflexivity).
  destruct (C124_rsi log10 2 c vals124 8 ltac:(lia) ltac:(lia) scale8 B) as (os & E & L & H). specialize (H 2%nat ltac:(cbn; lia)). exists os.
  destruct (f64_ofZ_correct 1) as [V1 _]; [cbn; lia|]. destruct (f64_ofZ_correct 2) as [V2 _]; [cbn; lia|]. destruct (f64_ofZ_correct 3) as [V3 _]; [cbn; lia|].
  assert (EG : Rsmooth (1 / INR 2) 2 (Rgains (firstn 3 (map B2R vals124))) = Some 1).
  { unfold vals124, Rgains, Rsmooth. cbn [map firstn diffs length Nat.ltb Nat.leb skipn fold_left]. rewrite V1, V2, V3. unfold Rmean. cbn [Rsum length INR]. f_equal.
    rewrite (Rmax_left (IZR 3 - IZR 1)), (Rmax_right (IZR 2 - IZR 3)) by lra. lra. }
  assert (EL : Rsmooth (1 / INR 2) 2 (Rlosses (firstn 3 (map B2R vals124))) = Some (/ 2)).
  { unfold vals124, Rlosses, Rsmooth. cbn [map firstn diffs length Nat.ltb Nat.leb skipn fold_left]. rewrite V1, V2, V3. unfold Rmean. cbn [Rsum length INR]. f_equal.
    rewrite (Rmax_right (- (IZR 3 - IZR 1))), (Rmax_left (- (IZR 2 - IZR 3))) by lra. lra. }
  rewrite EG, EL in H. destruct H as (v & N & K). exists v. split; [exact E|]. split; [exact N|]. cbn [INR] in K. destruct K as [F A]; [lra|]. split; [exact F|].
  replace (200 / 3) with (100 * (1 / (1 + / 2))) by lra. eapply Rle_trans; [exact A|]. lra.
Qed.
Example C124_bars : Forall (bar_within 8) bars123 /\ Forall (fun b => rl (real_bar b) <= rh (real_bar b)) bars123 /\
  (exists vs, map b_close bars123 = map Some vs /\ bounded_by 8 vs) /\ exists c : ctx f64, fresh_over c bars123.
Proof.
  split; [|split; [apply C123_holds|split; [|apply C123_holds]]].
  - repeat apply Forall_cons; [..|apply Forall_nil]; (eexists; eexists; eexists; eexists; split; [reflexivity|]; split; [reflexivity|]; split; [reflexivity|]; split; [reflexivity|]; repeat apply Forall_cons; [..|apply Forall_nil]; apply bound8_test; vm_compute; reflexivity).
  - eexists [_; _; _]. split; [reflexivity|]. repeat apply Forall_cons; [..|apply Forall_nil]; apply bound8_test; vm_compute; reflexivity.
Qed.
Print Assumptions C124_atr.
Print Assumptions C124_rsi.
Print Assumptions C124_macd.
Print Assumptions C124_ex.
