(** * PropRange: C107, ranges that rounding cannot break. *)
From Flocq Require Import Core Relative IEEE754.BinarySingleNaN.
From Verif Require Import PTa4 PContent3 Inst PIeee PIeee2 PMono PropTa3 PropContent2 PropContent3 PropContent4 PropRound PropForget PropSafe.
From Coq Require Import Lra Psatz.
Local Open Scope R_scope.

(** [v] is NaN or lies between [a] and [b]. *)
Definition between (a b v : f64) : Prop := is_nan v = true \/ (Bleb a v = true /\ Bleb v b = true).
(** [v] is NaN or not negative. *)
Definition nonnegative (v : f64) : Prop := is_nan v = true \/ Bleb (f64_ofZ 0) v = true.
(** every value reported. *)
Definition all_values (P : f64 -> Prop) (os : list (option f64)) : Prop := forall v, In (Some v) os -> P v.

Notation fexp64 := (SpecFloat.fexp 53 1024).
Notation rnd r := (round radix2 fexp64 (round_mode mode_NE) r).

Lemma not_above_le (x y : f64) : not_above x y -> is_finite y = true -> is_nan x = true \/ Bleb x y = true.
Proof.
  intros H Fy. apply not_above_cases in H. destruct H as [H|[H|[->|[->|(Fx & _ & H)]]]]; auto.
  - destruct y; discriminate.
  - right. destruct y; try discriminate; reflexivity.
  - discriminate.
  - right. rewrite Bleb_correct by assumption. apply Rle_bool_true, H.
Qed.
Lemma not_below_le (x y : f64) : not_above x y -> is_finite x = true -> is_nan y = true \/ Bleb x y = true.
Proof.
  intros H Fx. apply not_above_cases in H. destruct H as [H|[H|[->|[->|(_ & Fy & H)]]]]; auto.
  - destruct x; discriminate.
  - discriminate.
  - right. destruct x; try discriminate; reflexivity.
  - right. rewrite Bleb_correct by assumption. apply Rle_bool_true, H.
Qed.
Lemma le_not_above (x y : f64) : Bleb x y = true -> not_above x y.
Proof.
  intros H. apply not_above_cases. destruct (finite_cases x) as [Fx|[->|[->| ->]]], (finite_cases y) as [Fy|[->|[->| ->]]]; auto 6; try discriminate.
  - do 4 right. split; [exact Fx|]. split; [exact Fy|]. rewrite Bleb_correct in H by assumption. destruct (Rle_bool_spec (B2R x) (B2R y)); [assumption|discriminate].
  - destruct x; discriminate.
  - destruct y; discriminate.
Qed.
Lemma between_above a b v : is_finite a = true -> is_finite b = true -> between a b v <-> (not_above a v /\ not_above v b).
Proof.
  intros Fa Fb. split.
  - intros [N|[A B]].
    + split; apply not_above_cases; auto.
    + split; apply le_not_above; assumption.
  - intros [A B]. destruct (not_above_le v b B Fb) as [N|L]; [left; exact N|]. destruct (not_below_le a v A Fa) as [N|L']; [left; exact N|]. right. auto.
Qed.
Lemma above_trans (x y z : f64) : is_nan y = false -> not_above x y -> not_above y z -> not_above x z.
Proof.
  intros Y A B. apply not_above_cases in A. apply not_above_cases in B. apply not_above_cases.
  destruct A as [A|[A|[->|[->|(Fx & Fy & A)]]]]; [auto|congruence|auto|..].
  - destruct B as [B|[B|[B|[->|(Fy & _)]]]]; try discriminate; auto 6.
  - destruct B as [B|[B|[->|[->|(_ & Fz & B)]]]]; [congruence|auto|discriminate|auto 6|].
    do 4 right. split; [exact Fx|]. split; [exact Fz|lra].
Qed.

Section Ranges.
  Variable log10 : f64 -> f64.
  #[local] Instance N107 : Num f64 := IEEE log10.
  #[local] Instance O107 : OrdNum f64 := IEEEOrd log10.
  Notation z64 := (@fZ f64 N107).
  Notation n64 := (@fnat f64 N107).

  Lemma finz z : (Z.abs z <= 2 ^ 53)%Z -> is_finite (z64 z) = true. Proof. intros H. exact (proj1 (fin_fZ log10 z H)). Qed.
  Lemma valz z : (Z.abs z <= 2 ^ 53)%Z -> B2R (z64 z) = IZR z. Proof. intros H. exact (proj2 (fin_fZ log10 z H)). Qed.

  (** ** subtraction. *)
  Lemma minus_is_plus (x y : f64) : Bminus mode_NE x y = Bplus mode_NE x (Bopp y).
  Proof.
    destruct x as [sx|sx| |sx mx ex Hx], y as [sy|sy| |sy my ey Hy]; try reflexivity; try (destruct sx, sy; reflexivity).
  Qed.
  Lemma opp_above (x y : f64) : not_above x y -> not_above (Bopp y) (Bopp x).
  Proof.
    intros H. apply not_above_cases in H. apply not_above_cases. destruct H as [H|[H|[->|[->|(Fx & Fy & H)]]]]; auto 6.
    - right. left. destruct x; try discriminate; reflexivity.
    - left. destruct y; try discriminate; reflexivity.
    - do 4 right. rewrite !is_finite_Bopp, !B2R_Bopp. split; [exact Fy|]. split; [exact Fx|lra].
  Qed.
  Lemma minus_above (x y x' y' : f64) : not_above x x' -> not_above y' y -> not_above (Bminus mode_NE x y) (Bminus mode_NE x' y').
  Proof. intros A B. rewrite !minus_is_plus. apply plus_mono; [exact A|apply opp_above; exact B]. Qed.
  Lemma rounded_opp z r : rounded z r -> rounded (Bopp z) (- r).
  Proof.
    assert (E : rnd (- r) = - rnd r) by apply round_NE_opp. unfold rounded. rewrite E.
    intros [(F & V & B)|[[-> B]|[-> B]]].
    - left. rewrite is_finite_Bopp, B2R_Bopp, V, Rabs_Ropp. auto.
    - right. right. split; [reflexivity|lra].
    - right. left. split; [reflexivity|lra].
  Qed.
  Lemma minus_rounded (x y : f64) : is_finite x = true -> is_finite y = true -> rounded (Bminus mode_NE x y) (B2R x - B2R y).
  Proof.
    intros Fx Fy. rewrite minus_is_plus. unfold Rminus. rewrite <- B2R_Bopp. apply plus_rounded; [exact Fx|]. rewrite is_finite_Bopp. exact Fy.
  Qed.
  (** a range [h - l], overflowing or not, bounds every difference of two values inside. *)
  Lemma spread (l h x y : f64) : Bleb l x = true -> Bleb x h = true -> Bleb l y = true -> Bleb y h = true ->
    not_above (Bminus mode_NE x y) (Bminus mode_NE h l) /\ not_above (Bopp (Bminus mode_NE h l)) (Bminus mode_NE x y).
  Proof.
    intros A B C D. split; [apply minus_above; apply le_not_above; assumption|].
    destruct (is_finite h) eqn:Fh; [destruct (is_finite l) eqn:Fl|].
    - destruct (le_fin l x h Fl Fh A B) as [Fx Bx]. destruct (le_fin l y h Fl Fh C D) as [Fy By].
      eapply rounded_mono; [apply rounded_opp, minus_rounded; assumption|apply minus_rounded; assumption|lra].
    - apply not_above_cases. destruct l as [?|[|]| |]; try discriminate.
      + right. right. left. destruct h; try discriminate; reflexivity.
      + destruct x as [?|[|]| |[|] ? ? ?]; try discriminate. destruct h as [?|[|]| |[|] ? ? ?]; try discriminate.
    - apply not_above_cases. destruct h as [?|[|]| |]; try discriminate.
      + destruct x as [?|[|]| |[|] ? ? ?]; try discriminate. destruct l as [?|[|]| |[|] ? ? ?]; try discriminate. left. reflexivity.
      + destruct l as [?|[|]| |]; try discriminate; cbn; auto.
      + destruct x; discriminate.
  Qed.
  Lemma ratio (n d : f64) : not_above n d -> not_above (Bopp d) n -> between (f64_ofZ (-1)) (f64_ofZ 1) (Bdiv mode_NE n d).
  Proof.
    intros A B. apply not_above_cases in A. apply not_above_cases in B.
    destruct (finite_cases n) as [Fn|[->|[->| ->]]]; [|left..].
    - destruct (finite_cases d) as [Fd|[->|[->| ->]]].
      + assert (H : - B2R d <= B2R n <= B2R d).
        { split.
          - destruct B as [B|[B|[B|[B|(_ & _ & B)]]]]; [destruct d; discriminate|destruct n; discriminate|destruct d; discriminate|destruct n; discriminate|]. rewrite B2R_Bopp in B. exact B.
          - destruct A as [A|[A|[A|[A|(_ & _ & A)]]]]; [destruct n; discriminate|destruct d; discriminate|destruct n; discriminate|destruct d; discriminate|exact A]. }
        destruct (Req_dec (B2R d) 0) as [Z|NZ].
        * left. assert (Zn : B2R n = 0) by lra. destruct n as [sn|?| |sn mn en Hn]; try discriminate.
          -- destruct d as [sd|?| |sd md ed Hd]; try discriminate; [reflexivity|]. exfalso. cbn in Z. apply eq_0_F2R in Z. destruct sd; discriminate.
          -- exfalso. cbn in Zn. apply eq_0_F2R in Zn. destruct sn; discriminate.
        * right. assert (F1 : is_finite (f64_ofZ 1) = true) by reflexivity. assert (F2 : is_finite (f64_ofZ (-1)) = true) by reflexivity.
          assert (V1 : B2R (f64_ofZ 1) = 1) by (apply f64_ofZ_correct; lia). assert (V2 : B2R (f64_ofZ (-1)) = -1) by (apply (f64_ofZ_correct (-1)); lia).
          apply (within_le log10); [exact F2|exact F1|]. apply (div_within log10); [exact Fn|exact Fd|exact NZ|]. rewrite V1, V2.
          split; apply (Rmult_le_reg_r (B2R d)); try lra; unfold Rdiv; rewrite Rmult_assoc, Rinv_l by lra; lra.
      + right. destruct n; try discriminate; split; reflexivity.
      + right. destruct n; try discriminate; split; reflexivity.
      + left. destruct n; try discriminate; reflexivity.
    - destruct A as [A|[A|[A|[A|(A & _)]]]]; try discriminate; [destruct d; try discriminate; reflexivity|subst d; reflexivity].
    - destruct B as [B|[B|[B|[B|(_ & B & _)]]]]; try discriminate; [destruct d; try discriminate; reflexivity|destruct d as [?|[|]| |]; try discriminate; reflexivity].
    - reflexivity.
  Qed.
  Lemma hundred (v : f64) a b : (Z.abs a <= 1)%Z -> (Z.abs b <= 1)%Z -> between (f64_ofZ a) (f64_ofZ b) v ->
    between (f64_ofZ (a * 100)) (f64_ofZ (b * 100)) (Bmult mode_NE v (f64_ofZ 100)).
  Proof.
    intros Ha Hb H.
    assert (M : forall z, (Z.abs z <= 1)%Z -> Bmult mode_NE (f64_ofZ z) (f64_ofZ 100) = f64_ofZ (z * 100)).
    { intros z Hz. assert (z = -1 \/ z = 0 \/ z = 1)%Z as [->|[->| ->]] by lia; apply B2SF_inj; vm_compute; reflexivity. }
    apply between_above in H; [|apply (finz a); lia|apply (finz b); lia].
    apply between_above; [apply (finz (a * 100)); lia|apply (finz (b * 100)); lia|]. rewrite <- !M by assumption.
    split; (apply mult_mono_r; [right; reflexivity|apply H]).
  Qed.

  (** ** exponential smoothing. *)
  Lemma halves (a : f64) : is_finite a = true -> 0 <= B2R a <= 1 ->
    not_above (Bplus mode_NE a (Bminus mode_NE (f64_ofZ 1) a)) (f64_ofZ 1).
  Proof.
    intros Fa Wa. destruct (f64_ofZ_correct 1 ltac:(lia)) as [V1 F1]. change (IZR 1) with 1 in V1.
    assert (VE : Valid_exp fexp64) by apply (fexp_correct 53 1024 eq_refl).
    assert (W : within (f64_ofZ 0) (f64_ofZ 1) (Bminus mode_NE (f64_ofZ 1) a)).
    { apply (minus_within log10); [exact F1|exact Fa|]. rewrite V1. change (B2R (f64_ofZ 0)) with 0. lra. }
    destruct W as [Fb Wb]. pose proof (finite_minus (f64_ofZ 1) a F1 Fa Fb) as [Eb _]. rewrite V1 in Eb.
    pose proof (plus_rounded a _ Fa Fb) as K. rewrite Eb in K.
    assert (U : rnd (B2R a + rnd (1 - B2R a)) <= 1).
    { apply Rle_trans with (rnd (1 + bpow radix2 (-54))).
      - apply rnd_le. assert (Q : Rabs (rnd (1 - B2R a) - (1 - B2R a)) <= bpow radix2 (-54)); [|apply Rabs_le_inv in Q; lra].
        destruct (Req_dec (B2R a) 0) as [Z|NZ].
        { rewrite Z, Rminus_0_r. rewrite <- V1. rewrite round_generic by (try apply valid_rnd_round_mode; apply generic_format_B2R). unfold Rminus. rewrite Rplus_opp_r, Rabs_R0. apply bpow_ge_0. }
        destruct (Req_dec (1 - B2R a) 0) as [Z1|NZ1].
        { rewrite Z1, round_0 by apply valid_rnd_round_mode. rewrite Rminus_0_r, Rabs_R0. apply bpow_ge_0. }
        apply Rle_trans with (/ 2 * ulp radix2 fexp64 (1 - B2R a)); [apply error_le_half_ulp; exact VE|].
        replace (bpow radix2 (-54)) with (/ 2 * bpow radix2 (-53)) by (change (-53)%Z with (1 + -54)%Z; rewrite bpow_plus; change (bpow radix2 1) with 2; lra).
        apply Rmult_le_compat_l; [lra|]. rewrite ulp_neq_0 by exact NZ1. apply bpow_le. unfold cexp, SpecFloat.fexp.
        assert (mag radix2 (1 - B2R a) <= 0)%Z; [|unfold SpecFloat.emin; lia]. apply mag_le_bpow; [exact NZ1|]. rewrite Rabs_pos_eq by lra. change (bpow radix2 0) with 1. lra.
      - apply (round_N_le_midp radix2 fexp64). { rewrite <- V1. apply generic_format_B2R. }
        rewrite succ_eq_pos by lra. change 1 with (bpow radix2 0) at 4. rewrite ulp_bpow. change (SpecFloat.fexp 53 1024 (0 + 1)) with (-52)%Z.
        assert (bpow radix2 (-54) * 4 = bpow radix2 (-52)); [change 4 with (bpow radix2 2); rewrite <- bpow_plus; reflexivity|].
        pose proof (bpow_gt_0 radix2 (-54)). lra. }
    apply not_above_cases. destruct K as [(Fz & Ez & _)|[[_ Hz]|[Hz _]]]; [|exfalso|right; right; left; exact Hz].
    - do 4 right. split; [exact Fz|]. split; [exact F1|]. rewrite Ez, V1. exact U.
    - pose proof (bpow_lt radix2 0 1024 ltac:(lia)) as T. change (bpow radix2 0) with 1 in T. lra.
  Qed.
  Lemma Forall2_repeat {A B} (P : A -> B -> Prop) (l : list A) b : Forall (fun x => P x b) l -> Forall2 P l (repeat b (length l)).
  Proof. induction 1; cbn; constructor; assumption. Qed.
  Lemma Forall2_repeat' {A B} (P : B -> A -> Prop) (l : list A) b : Forall (fun x => P b x) l -> Forall2 P (repeat b (length l)) l.
  Proof. induction 1; cbn; constructor; assumption. Qed.
  Lemma of_nat_S n : (Z.of_nat (S n) <= 2 ^ 53)%Z -> Bplus mode_NE (n64 n) (f64_ofZ 1) = n64 (S n).
  Proof.
    intros L. destruct (f64_ofZ_correct (Z.of_nat n) ltac:(lia)) as [En Fn]. destruct (f64_ofZ_correct 1 ltac:(lia)) as [E1 F1].
    destruct (ofZ_pos (Z.of_nat (S n)) ltac:(lia)) as (Fs & Es & Ss).
    pose proof (Bplus_correct 53 1024 _ _ mode_NE (f64_ofZ (Z.of_nat n)) (f64_ofZ 1) Fn F1) as C.
    assert (EE : B2R (f64_ofZ (Z.of_nat n)) + B2R (f64_ofZ 1) = B2R (f64_ofZ (Z.of_nat (S n)))) by (rewrite En, E1, Es, <- plus_IZR; f_equal; lia).
    rewrite EE in C. rewrite round_generic in C by (try apply valid_rnd_round_mode; apply generic_format_B2R).
    rewrite Rlt_bool_true in C by apply abs_B2R_lt_emax. destruct C as (C & F & Sg).
    apply B2R_Bsign_inj; [exact F|exact Fs|exact C|]. change (n64 (S n)) with (f64_ofZ (Z.of_nat (S n))). rewrite Ss. rewrite Es in Sg. etransitivity; [exact Sg|].
    case Rcompare_spec; intros Hc; [|exfalso|reflexivity].
    - apply (lt_IZR _ 0) in Hc. lia.
    - apply (eq_IZR _ 0) in Hc. lia.
  Qed.
  Lemma ones n : (Z.of_nat n <= 2 ^ 53)%Z -> fsum (repeat (f64_ofZ 1) n) = n64 n.
  Proof.
    unfold fsum. induction n as [|n IH]; intros L; [reflexivity|].
    replace (S n) with (n + 1)%nat at 1 by lia. rewrite repeat_app, fold_left_app, IH by lia. cbn [repeat fold_left]. apply of_nat_S, L.
  Qed.
  Lemma self_div n : (1 <= n)%nat -> (Z.of_nat n <= 2 ^ 53)%Z -> fdiv (n64 n) (n64 n) = f64_ofZ 1.
  Proof.
    intros L1 L2. destruct (ofZ_pos (Z.of_nat n) ltac:(lia)) as (Fn & En & Sn). destruct (ofZ_pos 1 ltac:(lia)) as (F1 & E1 & S1).
    assert (NZ : B2R (f64_ofZ (Z.of_nat n)) <> 0). { rewrite En. intros H. apply (eq_IZR _ 0) in H. lia. }
    pose proof (Bdiv_correct 53 1024 _ _ mode_NE (f64_ofZ (Z.of_nat n)) (f64_ofZ (Z.of_nat n)) NZ) as C.
    replace (B2R (f64_ofZ (Z.of_nat n)) / B2R (f64_ofZ (Z.of_nat n))) with (B2R (f64_ofZ 1)) in C by (rewrite E1; field; exact NZ).
    rewrite round_generic in C by (try apply valid_rnd_round_mode; apply generic_format_B2R).
    rewrite Rlt_bool_true in C by apply abs_B2R_lt_emax. destruct C as (C & F & Sg).
    assert (FF : is_finite (Bdiv mode_NE (f64_ofZ (Z.of_nat n)) (f64_ofZ (Z.of_nat n))) = true) by (rewrite F; exact Fn).
    apply B2R_Bsign_inj; [exact FF|exact F1|exact C|]. rewrite S1. etransitivity; [apply Sg; destruct (Bdiv _ _ _); try discriminate; reflexivity|]. rewrite Sn. reflexivity.
  Qed.
  Lemma sum_high (l : list f64) : Forall (fun x => not_above x (f64_ofZ 1)) l -> not_above (fsum l) (fsum (repeat (f64_ofZ 1) (length l))).
  Proof.
    unfold fsum. intros H. generalize (not_above_refl (z64 0)). generalize (z64 0) at 1 3. generalize (z64 0).
    induction H as [|x l X _ IH]; intros b a O; [exact O|]. cbn [fold_left repeat length]. apply IH. apply plus_mono; assumption.
  Qed.
  Lemma smooth_high (al : f64) len (vs : list f64) (e : f64) : is_finite al = true -> 0 <= B2R al <= 1 -> unsigned al -> unsigned (fsub (z64 1) al) -> (1 <= len)%nat -> (Z.of_nat len <= 2 ^ 53)%Z ->
    Forall (fun x => not_above x (f64_ofZ 1)) vs -> ema_val al len vs = Some e -> not_above e (f64_ofZ 1).
  Proof.
    intros Fa Wa U1 U2 L L' H. unfold ema_val. destruct (Nat.eqb_spec len 1).
    - unfold newest. intros E. apply nth_error_In in E. rewrite Forall_forall in H. apply H, E.
    - destruct (Nat.ltb_spec (length vs) len) as [|LV]; [discriminate|]. intros E. apply some_inj in E. subst e.
      rewrite <- (firstn_skipn len vs) in H. apply Forall_app in H. destruct H as [H1 H2].
      assert (SD : fdiv (fsum (repeat (f64_ofZ 1) len)) (n64 len) = f64_ofZ 1) by (rewrite ones by exact L'; apply self_div; assumption).
      assert (B : not_above (fdiv (fsum (firstn len vs)) (n64 len)) (f64_ofZ 1)).
      { rewrite <- SD. apply div_mono; [apply (pz_fZ log10); lia|]. apply sum_high in H1. rewrite firstn_length_le in H1 by exact LV. exact H1. }
      revert B. generalize (fdiv (fsum (firstn len vs)) (n64 len)). clear H1.
      induction H2 as [|x l X _ IH]; intros e He; cbn [fold_left]; [exact He|].
      apply IH. apply above_trans with (Bplus mode_NE al (Bminus mode_NE (f64_ofZ 1) al)).
      + assert (Fb : is_finite (Bminus mode_NE (f64_ofZ 1) al) = true).
        { apply (minus_within log10 (f64_ofZ 0) (f64_ofZ 1)); [reflexivity|exact Fa|]. destruct (f64_ofZ_correct 1 ltac:(lia)) as [V1 _]. rewrite V1. change (B2R (f64_ofZ 0)) with 0. lra. }
        destruct (plus_rounded al _ Fa Fb) as [(Fz & _)|[[Hz _]|[Hz _]]]; [|rewrite Hz; reflexivity..]. destruct (Bplus _ _ _); try discriminate; reflexivity.
      + assert (G : Bplus mode_NE (Bmult mode_NE al (f64_ofZ 1)) (Bmult mode_NE (Bminus mode_NE (f64_ofZ 1) al) (f64_ofZ 1)) = Bplus mode_NE al (Bminus mode_NE (f64_ofZ 1) al)) by (rewrite !f64_mul_1; reflexivity).
        rewrite <- G. apply plus_mono; apply mult_mono; assumption.
      + apply halves; assumption.
  Qed.
  Definition weight (al : f64) : Prop := is_finite al = true /\ 0 <= B2R al <= 1 /\ unsigned al.
  Lemma weight_complement al : weight al -> unsigned (fsub (z64 1) al).
  Proof. intros (F & W & _). apply (positive_complement log10); assumption. Qed.
  Lemma nz_nonneg v : nz v -> nonnegative v.
  Proof.
    intros [[N|S0]| ->]; [left; exact N| |right; reflexivity].
    destruct v as [s|[|]| |[|] m e H]; cbn in S0; try discriminate; try (right; reflexivity); left; reflexivity.
  Qed.
  Lemma nonneg_nz v : nonnegative v -> nz v.
  Proof.
    intros [N|H]; [left; left; exact N|]. exact (le_0_nz log10 v H).
  Qed.
  Lemma nonneg_above v : nonnegative v <-> not_above (f64_ofZ 0) v.
  Proof.
    split.
    - intros [N|H]; [apply not_above_cases; auto|apply le_not_above; exact H].
    - intros H. apply not_below_le in H; [exact H|reflexivity].
  Qed.
  Lemma smooth_low al len vs e : weight al -> (1 <= len)%nat -> (Z.of_nat len <= 2 ^ 53)%Z -> Forall nonnegative vs ->
    ema_val al len vs = Some e -> nonnegative e.
  Proof.
    intros W L L' H. assert (UC := weight_complement al W). destruct W as (F & W & U). apply (Forall_impl _ nonneg_nz) in H.
    unfold ema_val. destruct (Nat.eqb_spec len 1).
    - unfold newest. intros E. apply nth_error_In in E. rewrite Forall_forall in H. apply nz_nonneg, H, E.
    - destruct (Nat.ltb_spec (length vs) len); [discriminate|]. intros E. apply some_inj in E. subst e. apply nz_nonneg. left.
      rewrite <- (firstn_skipn len vs) in H. apply Forall_app in H. destruct H as [H1 H2].
      assert (B : pz (fdiv (fsum (firstn len vs)) (n64 len))) by (apply (div_pz log10); [apply (sum_pz log10); exact H1|apply (pz_fZ log10); lia]).
      revert B. generalize (fdiv (fsum (firstn len vs)) (n64 len)).
      induction H2 as [|x l X _ IH]; intros a Ha; cbn [fold_left]; [exact Ha|]. apply IH.
      apply (plus_pz_r log10); [apply (mult_nz log10); assumption|apply (mult_pz log10); assumption].
  Qed.
  Lemma smooth_unit al len vs e : weight al -> (1 <= len)%nat -> (Z.of_nat len <= 2 ^ 53)%Z -> Forall (between (f64_ofZ 0) (f64_ofZ 1)) vs ->
    ema_val al len vs = Some e -> between (f64_ofZ 0) (f64_ofZ 1) e.
  Proof.
    intros W L L' H E. assert (UC := weight_complement al W).
    assert (Lo : nonnegative e). { apply (smooth_low al len vs e W L L'); [|exact E]. eapply Forall_impl; [|exact H]. intros x [N|[A _]]; [left|right]; assumption. }
    destruct W as (F & W & U). apply between_above; [reflexivity..|]. split; [apply nonneg_above, Lo|].
    apply (smooth_high al len vs e); try assumption. eapply Forall_impl; [|exact H]. intros x Hx; apply between_above in Hx; [apply Hx|reflexivity..].
  Qed.

  (** ** reading a run off its closed form. *)
  Lemma all_each {A} (P : f64 -> Prop) (f : list A -> option f64) xs :
    (forall i v, (i < length xs)%nat -> f (firstn (S i) xs) = Some v -> P v) -> all_values P (each_prefix f xs).
  Proof. intros H v Hv. apply In_nth_error in Hv. destruct Hv as [i Hi]. apply nth_each in Hi. destruct Hi as [L E]. apply (H i v L). symmetry. exact E. Qed.
  Lemma prefix_all {A} (P : A -> Prop) (xs : list A) n : Forall P xs -> Forall P (firstn n xs).
  Proof. intros H. rewrite <- (firstn_skipn n xs) in H. apply Forall_app in H. apply H. Qed.
  Lemma present_values (P : f64 -> Prop) (xs : list (option f64)) : all_values P xs -> Forall P (present xs).
  Proof. intros H. apply present_Forall. exact H. Qed.
  Lemma all_prefix (P : f64 -> Prop) xs n : all_values P xs -> all_values P (firstn n xs).
  Proof. intros H v Hv. apply H. rewrite <- (firstn_skipn n xs). apply in_or_app. left. exact Hv. Qed.
  Lemma values_of_warm (P : f64 -> Prop) k vs : Forall P vs -> Forall P (present (warm k vs)).
  Proof.
    intros H. apply present_values. intros v Hv. unfold warm in Hv. apply in_app_or in Hv. destruct Hv as [Hv|Hv].
    - apply repeat_spec in Hv. discriminate.
    - apply in_map_iff in Hv. destruct Hv as (x & E & Hx). injection E as <-. rewrite Forall_forall in H. apply H, Hx.
  Qed.

  Lemma rma_weight len : (1 <= len)%nat -> (Z.of_nat len <= 2 ^ 53)%Z -> weight (rma_alpha_of len).
  Proof.
    intros L L'. destruct (ofZ_pos (Z.of_nat len) ltac:(lia)) as (Fn & En & Sn). destruct (ofZ_pos 1 ltac:(lia)) as (F1 & E1 & S1).
    assert (P1 : 1 <= IZR (Z.of_nat len)) by (apply (IZR_le 1); lia).
    destruct (div_within log10 (f64_ofZ 0) (f64_ofZ 1) (f64_ofZ 1) (n64 len) F1 Fn) as [Fa Wa].
    - change (B2R (f64_ofZ (Z.of_nat len)) <> 0). rewrite En. lra.
    - change (B2R (n64 len)) with (B2R (f64_ofZ (Z.of_nat len))). rewrite E1, En. change (B2R (f64_ofZ 0)) with 0. split; [apply Rlt_le, Rdiv_lt_0_compat; lra|].
      apply Rmult_le_reg_r with (IZR (Z.of_nat len)); [lra|]. unfold Rdiv. rewrite Rmult_assoc, Rinv_l; lra.
    - rewrite E1 in Wa. change (B2R (f64_ofZ 0)) with 0 in Wa. split; [exact Fa|]. split; [exact Wa|]. apply (div_pz log10); right; assumption.
  Qed.
  Lemma ema_weight len : (1 <= len)%nat -> (Z.of_nat len <= 2 ^ 32)%Z -> weight (ema_alpha_of len).
  Proof.
    intros L L'. destruct (ofZ_pos (Z.of_nat len) ltac:(lia)) as (_ & _ & Sn). destruct (ofZ_pos 2 ltac:(lia)) as (F2 & E2 & S2). destruct (ofZ_pos 1 ltac:(lia)) as (F1 & E1 & S1).
    assert (FP : is_finite (fadd (n64 len) (z64 1)) = true) by exact (proj1 (int_plus_1 log10 len L')). assert (EP : B2R (fadd (n64 len) (z64 1)) = INR len + 1) by exact (proj2 (int_plus_1 log10 len L')). assert (P1 : 1 <= INR len) by (apply (le_INR 1); exact L).
    destruct (div_within log10 (f64_ofZ 0) (f64_ofZ 1) (f64_ofZ 2) (fadd (n64 len) (z64 1)) F2 FP) as [Fa Wa].
    - rewrite EP. lra.
    - rewrite E2, E1, EP. change (B2R (f64_ofZ 0)) with 0. split; [apply Rlt_le, Rdiv_lt_0_compat; lra|].
      apply Rmult_le_reg_r with (INR len + 1); [lra|]. unfold Rdiv. rewrite Rmult_assoc, Rinv_l; lra.
    - rewrite E1 in Wa. change (B2R (f64_ofZ 0)) with 0 in Wa. split; [exact Fa|]. split; [exact Wa|].
      apply (div_pz log10); [right; exact S2|]. apply (plus_pz log10); [right; exact Sn|]. left. right. exact S1.
  Qed.
  Lemma smooth_all (P : f64 -> Prop) al len k vs : (1 <= len)%nat ->
    (forall ws e, Forall P ws -> ema_val al len ws = Some e -> P e) -> Forall P vs ->
    forall os, ema_runs len al (warm k vs) = Ok os -> all_values P os.
  Proof.
    intros L H HP os E. rewrite ema_runs_out in E; [|exact L|exists k, vs; reflexivity]. injection E as <-.
    apply all_each. intros i v _ Hv. unfold ema_out in Hv. apply (H _ v) in Hv; [exact Hv|].
    apply present_values. apply all_prefix. intros x Hx. assert (Q := values_of_warm P k vs HP). 
    unfold warm in Hx. apply in_app_or in Hx. destruct Hx as [Hx|Hx]; [apply repeat_spec in Hx; discriminate|].
    apply in_map_iff in Hx. destruct Hx as (y & Ey & Hy). injection Ey as <-. rewrite Forall_forall in HP. apply HP, Hy.
  Qed.
  (** ** Ema, Rma: no value outside [0, 1], or below 0, if no input is. *)
  Theorem C107_smoothing len c k vs os : (1 <= len)%nat -> (Z.of_nat len <= 2 ^ 32)%Z ->
    run_new (ema_new len) ema_step c (repeat None k ++ map Some vs) = Ok os \/ run_new (rma_new len) rma_step c (repeat None k ++ map Some vs) = Ok os ->
    (Forall nonnegative vs -> all_values nonnegative os) /\
    (Forall (between (f64_ofZ 0) (f64_ofZ 1)) vs -> all_values (between (f64_ofZ 0) (f64_ofZ 1)) os).
  Proof.
    intros L L' E. fold (warm k vs) in E. change (ema_new len) with (ema_with_alpha len (ema_alpha_of len)) in E. rewrite (ema_with_alpha_run len _ c (warm k vs) L), (rma_run len c (warm k vs) L) in E.
    assert (W1 := ema_weight len L L'). assert (W2 : weight (rma_alpha_of len)) by (apply rma_weight; [exact L|lia]).
    assert (L2 : (Z.of_nat len <= 2 ^ 53)%Z) by lia.
    split; intros H; destruct E as [E|E]; eapply smooth_all; try exact E; try exact L; try exact H; intros ws e Hw He.
    - apply (smooth_low (ema_alpha_of len) len ws); assumption.
    - apply (smooth_low (rma_alpha_of len) len ws); assumption.
    - apply (smooth_unit (ema_alpha_of len) len ws); assumption.
    - apply (smooth_unit (rma_alpha_of len) len ws); assumption.
  Qed.

  (** ** Wma, Swma: weighted averages of non-negative values. *)
  Lemma wma_nz len vs : Forall nz vs -> forall i s n, (Z.of_nat (len * len) <= 2 ^ 53)%Z -> pz s -> pz n -> pz (fst (wma_sums len vs i s n)) /\ pz (snd (wma_sums len vs i s n)).
  Proof.
    induction 1 as [|v vs V _ IH]; intros i s n L S N; cbn [wma_sums]; [split; assumption|].
    assert (W : pz (n64 ((len - i) * len))).
    { apply (pz_fZ log10). split; [apply Nat2Z.is_nonneg|]. apply Z.le_trans with (2 := L). apply Nat2Z.inj_le, Nat.mul_le_mono_r. lia. }
    apply IH; [exact L| |].
    - apply (plus_pz log10); [exact S|]. change (nz (Bmult mode_NE v (n64 ((len - i) * len)))). rewrite PMono.mult_comm. apply (mult_nz log10); assumption.
    - apply (plus_pz log10); [exact N|]. left. exact W.
  Qed.
  Lemma window_values (P : f64 -> Prop) n h vs : all_values P h -> all_some (lastn n h) = Some vs -> Forall P vs.
  Proof.
    intros H E. assert (Q : lastn n h = map Some vs).
    { clear H. revert E. generalize (lastn n h). intros l. revert vs. induction l as [|[x|] l IH]; intros vs E; cbn in E; try discriminate; [injection E as <-; reflexivity|].
      destruct (all_some l) eqn:A; [|discriminate]. cbn in E. injection E as <-. cbn. f_equal. apply IH. reflexivity. }
    apply Forall_forall. intros x Hx. apply H. assert (I : In (Some x) (lastn n h)) by (rewrite Q; apply in_map; exact Hx).
    unfold lastn in I. rewrite <- (firstn_skipn (length h - n) h). apply in_or_app. right. exact I.
  Qed.
  Theorem C107_weighted len c xs os : (1 <= len)%nat -> (Z.of_nat (len * len) <= 2 ^ 53)%Z -> all_values nonnegative xs ->
    run_new (wma_new len) wma_step c xs = Ok os \/ run_new swma_new swma_step c xs = Ok os -> all_values nonnegative os.
  Proof.
    intros L L' H [E|E].
    - rewrite (wma_run len c xs L) in E. injection E as <-. apply all_each. intros i v _ Hv. unfold wma_out in Hv.
      destruct (len <=? _)%nat; [|discriminate]. destruct (all_some _) as [vs|] eqn:W; [|discriminate]. cbn [option_map] in Hv.
      apply (window_values nonnegative) in W; [|apply all_prefix; exact H].
      assert (V : Forall nz (rev vs)) by (apply Forall_rev; eapply Forall_impl; [|exact W]; exact nonneg_nz).
      destruct (wma_nz len (rev vs) V 0 (z64 0) (z64 0) L') as [A B]; [right; reflexivity..|].
      destruct (wma_sums len (rev vs) 0 (fZ 0) (fZ 0)) as [s n]. apply some_inj in Hv. subst v. apply nz_nonneg. left. apply (div_pz log10); assumption.
    - rewrite swma_run in E. injection E as <-. apply all_each. intros i v _ Hv. unfold swma_out in Hv.
      destruct (4 <=? _)%nat; [|discriminate]. destruct (all_some _) as [vs|] eqn:W; [|discriminate]. cbn [option_map] in Hv. apply some_inj in Hv. subst v.
      apply (window_values nonnegative) in W; [|apply all_prefix; exact H]. apply (Forall_impl _ nonneg_nz) in W.
      assert (W1 : pz (fdiv (z64 1) (z64 6))) by (right; vm_compute; reflexivity). assert (W2 : pz (fdiv (z64 2) (z64 6))) by (right; vm_compute; reflexivity).
      assert (Z0 : pz (z64 0)) by (right; reflexivity).
      assert (M : forall x w, nz x -> pz w -> nz (fmul x w)) by (intros x w X W0; change (nz (Bmult mode_NE x w)); rewrite PMono.mult_comm; apply (mult_nz log10); assumption).
      apply nz_nonneg. left.
      assert (AD : forall a x w, pz a -> nz x -> pz w -> pz (fadd a (fmul x w))) by (intros a x w A X W0; apply (plus_pz log10); [exact A|apply M; assumption]).
      unfold swma_mean. destruct vs as [|a [|b [|d [|e [|? ?]]]]]; repeat match goal with H : Forall _ (_ :: _) |- _ => inversion H; subst; clear H end;
        repeat (apply AD; try assumption); try exact Z0.
  Qed.

  (** ** Dev, Stdev: whatever the inputs. *)
  Lemma sqrt_pz (x : f64) : pz x -> pz (Bsqrt mode_NE x).
  Proof.
    intros H. destruct (Bsqrt_correct 53 1024 _ _ mode_NE x) as (_ & _ & S0). destruct (is_nan (Bsqrt mode_NE x)) eqn:N; [left; exact N|right].
    rewrite (S0 eq_refl). destruct H as [H|H]; [|exact H]. destruct x; discriminate.
  Qed.
  Lemma square_pz (x : f64) : pz (Bmult mode_NE x x).
  Proof.
    destruct (is_nan (Bmult mode_NE x x)) eqn:N; [left; exact N|right]. destruct x as [s|s| |s m e H]; try discriminate; try (destruct s; reflexivity).
    pose proof (Bmult_correct 53 1024 _ _ mode_NE (B754_finite s m e H) (B754_finite s m e H)) as C.
    destruct (Rlt_bool _ _) in C.
    - destruct C as (_ & _ & S0). rewrite (S0 N). destruct s; reflexivity.
    - apply sf_inf in C. rewrite C. destruct s; reflexivity.
  Qed.
  Theorem C107_dispersion len biased c xs os : (1 <= len)%nat -> (Z.of_nat len <= 2 ^ 53)%Z ->
    run_new (dev_new len) dev_step c xs = Ok os \/ run_new (stdev_new len biased) stdev_step c xs = Ok os -> all_values nonnegative os.
  Proof.
    intros L L' [E|E].
    - rewrite (makes_run _ _ _ _ c xs (dev_makes len L) I) in E. injection E as <-. apply all_each. intros i v _ Hv. unfold dev_out in Hv.
      destruct (len =? 1)%nat; [apply some_inj in Hv; subst v; right; reflexivity|]. destruct (window len _) as [w|] eqn:W; [|discriminate]. apply window_length in W.
      cbn [option_map] in Hv. apply some_inj in Hv. subst v. apply nz_nonneg. left. unfold dev_val. apply (div_pz log10); [apply (sum_pz log10)|apply (pz_fZ log10); lia].
      apply Forall_forall. intros x Hx. apply in_map_iff in Hx. destruct Hx as (y & <- & _). apply abs_nz.
    - rewrite (makes_run _ _ _ _ c xs (stdev_makes biased len L) I) in E. injection E as <-. apply all_each. intros i v _ Hv. unfold stdev_out in Hv.
      destruct (len =? 1)%nat; [destruct biased; [apply some_inj in Hv; subst v; right; reflexivity|discriminate]|]. destruct (window len _) as [w|] eqn:W; [|discriminate]. apply window_length in W.
      cbn [option_map] in Hv. apply some_inj in Hv. subst v. apply nz_nonneg. left. unfold stdev_val. apply sqrt_pz. apply (div_pz log10); [apply (sum_pz log10)|apply (pz_fZ log10); destruct biased; lia].
      apply Forall_forall. intros x Hx. apply in_map_iff in Hx. destruct Hx as (y & <- & _). left. apply square_pz.
  Qed.

  (** ** bars whose low does not exceed their high. *)
  Definition upright (b : bar f64) : Prop := exists h l, b_high b = Some h /\ b_low b = Some l /\ Bleb l h = true.
  Lemma upright_hl bs : Forall upright bs -> Forall has_hl bs.
  Proof. apply Forall_impl. intros b (h & l & Eh & El & _). split; congruence. Qed.
  Lemma tr_nonneg na (h : list (bar f64)) v : Forall upright h -> tr_out na h = Some v -> nonnegative v.
  Proof.
    intros H E. apply nz_nonneg. unfold tr_out in E. destruct h as [|b h] using rev_ind; [destruct (cur b_high []); discriminate|]. rewrite !cur_snoc, !prv_snoc in E.
    apply Forall_app in H. destruct H as [_ H]. inversion H as [|? ? (hi & lo & Eh & El & B)]; subst. rewrite Eh, El in E. pose proof (le_sub_nz lo hi B) as D.
    unfold true_range in E. destruct (cur b_high h), (cur b_low h), (cur b_close h) as [pc|]; try (destruct na; [|discriminate]); apply some_inj in E; subst v; try exact D.
    apply (fmax_nz log10); [apply (fmax_nz log10); [exact D|apply abs_nz]|apply abs_nz].
  Qed.
  Lemma smoothed_bars len f (h : list (bar f64)) v : (1 <= len)%nat -> (Z.of_nat len <= 2 ^ 53)%Z -> Forall upright h ->
    (forall p x, Forall upright p -> f p = Some x -> nonnegative x) ->
    ema_out (rma_alpha_of len) len (each_prefix f h) = Some v -> nonnegative v.
  Proof.
    intros L L' H N E. unfold ema_out in E. apply (smooth_low (rma_alpha_of len) len _ v (rma_weight len L L') L L') in E; [exact E|].
    apply present_values, all_each. intros i x _ Hx. apply (N (firstn (S i) h)); [apply prefix_all; exact H|exact Hx].
  Qed.
  Theorem C107_true_range na len c bs os : (1 <= len)%nat -> (Z.of_nat len <= 2 ^ 53)%Z -> fresh_over c bs -> Forall upright bs ->
    run tr_step c na (ticks (length bs)) = Ok os \/ run_new (atr_new len) atr_step c (ticks (length bs)) = Ok os -> all_values nonnegative os.
  Proof.
    intros L L' FO H [E|E].
    - rewrite (tr_run na c bs FO (upright_hl _ H)) in E. injection E as <-. apply all_each. intros i v _ Hv. eapply tr_nonneg; [|exact Hv]. apply prefix_all, H.
    - destruct (atr_run len c bs L FO (upright_hl _ H)) as (s & ES & ER). unfold run_new in E. rewrite ES in E. cbn [rbind] in E. rewrite ER in E. injection E as <-.
      apply all_each. intros i v _ Hv. unfold atr_out in Hv. eapply smoothed_bars; [exact L|exact L'|apply prefix_all, H|intros p x; apply tr_nonneg|exact Hv].
  Qed.

  (** ** directional movement. *)
  Lemma rounded_abs z r : rounded z r -> rounded (Babs z) (Rabs r).
  Proof.
    assert (VE : Valid_exp fexp64) by apply (fexp_correct 53 1024 eq_refl).
    assert (E : rnd (Rabs r) = Rabs (rnd r)) by (apply round_NE_abs; exact VE). unfold rounded. rewrite E. pose proof (bpow_gt_0 radix2 1024) as T.
    intros [(F & V & B)|[[-> B]|[-> B]]].
    - left. rewrite is_finite_Babs, B2R_Babs, V, Rabs_Rabsolu. auto.
    - right. left. split; [reflexivity|]. rewrite Rabs_pos_eq; lra.
    - right. left. split; [reflexivity|]. rewrite Rabs_left1; lra.
  Qed.
  Lemma nz_real v : nz v -> 0 <= B2R v. Proof. exact (B2R_nz v). Qed.
  Lemma plus_nz (p m : f64) : nz p -> nz m -> nz (Bplus mode_NE p m).
  Proof.
    intros [P| ->] M; [left; exact (plus_pz log10 p m P M)|]. destruct M as [M| ->]; [left; exact (plus_pz_r log10 (B754_zero true) m ltac:(right; reflexivity) M)|]. right. reflexivity.
  Qed.
  Lemma dx_range (p m v : f64) : nz p -> nz m -> dmi_dx (Some p) (Some m) = Some v -> between (f64_ofZ 0) (f64_ofZ 1) v.
  Proof.
    intros P M E. cbn [dmi_dx] in E. apply some_inj in E.
    change (Bdiv mode_NE (Babs (Bminus mode_NE p m)) (if Beqb p (Bopp m) then f64_ofZ 0 else Bplus mode_NE p m) = v) in E.
    assert (A : pz (Babs (Bminus mode_NE p m))) by (destruct (Bminus mode_NE p m); [right|right|left|right]; reflexivity).
    destruct (Beqb p (Bopp m)) eqn:Q.
    - left. subst v. destruct (finite_cases p) as [Fp|[->|[->| ->]]], (finite_cases m) as [Fm|[->|[->| ->]]]; try discriminate.
      + rewrite Beqb_correct in Q by (rewrite ?is_finite_Bopp; assumption). rewrite B2R_Bopp in Q.
        destruct (Req_bool_spec (B2R p) (- B2R m)) as [Q'|Q']; [|discriminate]. pose proof (nz_real p P). pose proof (nz_real m M).
        assert (Zp : B2R p = 0) by lra. assert (Zm : B2R m = 0) by lra.
        destruct p as [sp|?| |sp mp ep Hp]; try discriminate; [|exfalso; cbn in Zp; apply eq_0_F2R in Zp; destruct sp; discriminate].
        destruct m as [sm|?| |sm mm em Hm]; try discriminate; [|exfalso; cbn in Zm; apply eq_0_F2R in Zm; destruct sm; discriminate].
        destruct sp, sm; reflexivity.
      + destruct p; discriminate.
      + destruct p; discriminate.
      + destruct p; discriminate.
      + destruct m; discriminate.
      + destruct M as [[M|M]|M]; discriminate.
      + destruct P as [[P|P]|P]; discriminate.
      + destruct P as [[P|P]|P]; discriminate.
    - assert (LE : nonnegative v).
      { subst v. assert (D := plus_nz p m P M).
        destruct D as [D|D].
        - apply nz_nonneg. left. apply (div_pz log10); assumption.
        - exfalso. destruct P as [P| ->].
          + assert (K : pz (Bplus mode_NE p m)) by exact (plus_pz log10 p m P M). rewrite D in K. destruct K as [K|K]; discriminate.
          + destruct M as [M| ->]; [|discriminate]. assert (K : pz (Bplus mode_NE (B754_zero true) m)) by exact (plus_pz_r log10 (B754_zero true) m ltac:(right; reflexivity) M). rewrite D in K. destruct K as [K|K]; discriminate. }
      assert (U : between (f64_ofZ (-1)) (f64_ofZ 1) v).
      { subst v. apply ratio.
        - destruct (finite_cases p) as [Fp|[->|[->| ->]]].
          + destruct (finite_cases m) as [Fm|[->|[->| ->]]].
            * eapply rounded_mono; [apply rounded_abs, minus_rounded; assumption|apply plus_rounded; assumption|].
              apply Rabs_le. pose proof (nz_real p P). pose proof (nz_real m M). lra.
            * apply not_above_cases. destruct p; try discriminate; auto 6.
            * exfalso. destruct M as [[M|M]|M]; discriminate.
            * apply not_above_cases. left. destruct p; try discriminate; reflexivity.
          + apply not_above_cases. destruct m as [?|[|]| |]; cbn; auto 6.
          + exfalso. destruct P as [[P|P]|P]; discriminate.
          + apply not_above_cases. left. reflexivity.
        - destruct A as [A|A]; [apply not_above_cases; right; left; exact A|]. 
          assert (D := plus_nz p m P M).
          apply above_trans with (f64_ofZ 0); [reflexivity| |apply nonneg_above, nz_nonneg; left; right; exact A].
          apply nz_nonneg, nonneg_above, opp_above in D. exact D. }
      apply between_above; [reflexivity..|]. split; [apply nonneg_above; exact LE|]. apply between_above in U; [apply U|reflexivity..].
  Qed.
  Lemma moved_nonneg (f : option f64 -> option f64 -> option f64) (p : list (bar f64)) x : f = dmi_plus_dm \/ f = dmi_minus_dm ->
    f (dm_up p) (dm_down p) = Some x -> nonnegative x.
  Proof.
    assert (Z0 : nonnegative (z64 0)) by (right; reflexivity).
    assert (G : forall x y : f64, fgtb x y && fgtb x (z64 0) = true -> nonnegative x).
    { intros u w H. apply andb_prop in H. destruct H as [_ H]. apply nonneg_above. apply not_above_cases. change (Bltb (f64_ofZ 0) u = true) in H.
      destruct u as [s|[|]| |s m e Hu]; try discriminate; auto 6. do 4 right. split; [reflexivity|]. split; [reflexivity|].
      rewrite Bltb_correct in H by reflexivity. destruct (Rlt_bool_spec (B2R (f64_ofZ 0)) (B2R (B754_finite s m e Hu))); [lra|discriminate]. }
    intros [-> | ->] E; unfold dmi_plus_dm, dmi_minus_dm in E; destruct (dm_up p) as [u|], (dm_down p) as [d|]; try discriminate;
      destruct (_ && _) eqn:C in E; apply some_inj in E; subst x; try exact Z0; eapply G; exact C.
  Qed.
  Lemma di_nonneg len f h x : (1 <= len)%nat -> (Z.of_nat len <= 2 ^ 53)%Z -> Forall upright h -> f = plus_dm \/ f = minus_dm ->
    dmi_di len f h = Some x -> nz x.
  Proof.
    intros L L' H HF E. apply nonneg_nz. unfold dmi_di, last_present in E.
    assert (Q : Forall nonnegative (present (each_prefix (dmi_raw len f) h))).
    { apply present_values, all_each. intros i v _ Hv. unfold dmi_raw, dmi_rma in Hv.
      destruct (ema_out _ _ (each_prefix f _)) as [n|] eqn:En; [|discriminate]. destruct (ema_out _ _ (each_prefix (tr_out false) _)) as [d|] eqn:Ed; [|discriminate].
      cbn [ps_div] in Hv. destruct (d ==? fZ 0)%num eqn:Zd; [discriminate|]. cbn [times100 option_map] in Hv. apply some_inj in Hv. subst v.
      assert (Hp : Forall upright (firstn (S i) h)) by apply prefix_all, H.
      apply smoothed_bars in En; [|exact L|exact L'|exact Hp|intros p y _ Hy; destruct HF as [-> | ->]; [apply (moved_nonneg dmi_plus_dm p y); auto|apply (moved_nonneg dmi_minus_dm p y); auto]].
      apply smoothed_bars in Ed; [|exact L|exact L'|exact Hp|intros p y; apply tr_nonneg].
      apply nonneg_nz in En, Ed. assert (D : pz d) by (destruct Ed as [Ed| ->]; [exact Ed|discriminate]).
      apply nz_nonneg. change (nz (Bmult mode_NE (Bdiv mode_NE n d) (f64_ofZ 100))). rewrite PMono.mult_comm. apply (mult_nz log10); [right; reflexivity|].
      destruct En as [En| ->]; [left; apply (div_pz log10); assumption|]. destruct D as [D|D]; [left; left; destruct d; try discriminate; reflexivity|].
      destruct d as [[|]|[|]| |[|] ? ? ?]; try discriminate; try (right; reflexivity); left; left; reflexivity. }
    unfold newest in E. apply nth_error_In in E. rewrite Forall_forall in Q. apply Q, E.
  Qed.
  Theorem C107_directional n m c bs os : (1 <= n)%nat -> (1 <= m)%nat -> (Z.of_nat n <= 2 ^ 53)%Z -> (Z.of_nat m <= 2 ^ 53)%Z ->
    fresh_over c bs -> Forall complete bs -> Forall upright bs ->
    run_new (dmi_new n m) dmi_step c (ticks (length bs)) = Ok os ->
    all_values nonnegative (map (fun o => fst (fst o)) os) /\ all_values nonnegative (map (fun o => snd (fst o)) os) /\
    all_values (between (f64_ofZ 0) (f64_ofZ 100)) (map snd os).
  Proof.
    intros Ln Lm Ln' Lm' FO HC H E. rewrite dmi_run in E; [|assumption..|apply complete_hlc, HC]. injection E as <-. rewrite !each_prefix_map. unfold dmi_out. cbn [fst snd].
    split; [|split]; apply all_each; intros i v _ Hv.
    - apply nz_nonneg. eapply di_nonneg; [exact Ln|exact Ln'|apply prefix_all, H|left; reflexivity|exact Hv].
    - apply nz_nonneg. eapply di_nonneg; [exact Ln|exact Ln'|apply prefix_all, H|right; reflexivity|exact Hv].
    - destruct (ema_out _ _ _) as [a|] eqn:A; [|discriminate]. cbn [times100 option_map] in Hv. apply some_inj in Hv. subst v.
      apply (hundred a 0 1); [lia..|]. unfold ema_out in A. eapply smooth_unit; [apply rma_weight; [exact Lm|exact Lm']|exact Lm|exact Lm'| |exact A].
      apply present_values, all_each. intros j x _ Hx. unfold dmi_dx_of in Hx.
      destruct (dmi_di n plus_dm _) as [p|] eqn:P; [|discriminate]. destruct (dmi_di n minus_dm _) as [q|] eqn:Q; [|discriminate].
      apply (dx_range p q x); [..|exact Hx].
      + eapply di_nonneg; [exact Ln|exact Ln'| |left; reflexivity|exact P]. apply prefix_all, prefix_all, H.
      + eapply di_nonneg; [exact Ln|exact Ln'| |right; reflexivity|exact Q]. apply prefix_all, prefix_all, H.
  Qed.

  (** ** Balance of Power: any bar whose open and close lie between its low and
      its high, infinite prices and overflowing ranges included. *)
  Definition consistent_bar (b : bar f64) : Prop := exists o h l cl,
    b_open b = Some o /\ b_high b = Some h /\ b_low b = Some l /\ b_close b = Some cl /\
    Bleb l o = true /\ Bleb o h = true /\ Bleb l cl = true /\ Bleb cl h = true.
  Theorem C107_balance c bs os : fresh_over c bs -> Forall consistent_bar bs ->
    run bop_step c tt (ticks (length bs)) = Ok os -> all_values (between (f64_ofZ (-1)) (f64_ofZ 1)) os.
  Proof.
    intros FO H E. destruct (C53_bop c bs FO) as (os' & E' & LO & P). rewrite E in E'. injection E' as <-.
    intros v Hv. apply In_nth_error in Hv. destruct Hv as [i Hi].
    assert (Li : (i < length bs)%nat) by (rewrite <- LO; apply nth_error_Some; congruence).
    destruct (nth_error bs i) as [b|] eqn:Hb; [|apply nth_error_None in Hb; lia]. rewrite (P i b Hb) in Hi.
    rewrite Forall_forall in H. destruct (H b (nth_error_In _ _ Hb)) as (o & h & l & cl & Eo & Eh & El & Ec & B1 & B2 & B3 & B4). rewrite Eo, Eh, El, Ec in Hi.
    destruct (h ==? l)%num; [discriminate|]. injection Hi as <-.
    destruct (spread l h cl o B3 B4 B1 B2) as [A B]. apply ratio; assumption.
  Qed.

  (** ** Williams %R *)
  Lemma not_nan_lr (x y : f64) : Bleb x y = true -> is_nan x = false /\ is_nan y = false.
  Proof. intros H. destruct x, y; try discriminate; try (split; reflexivity). all: try (destruct s; discriminate). Qed.
  Lemma top_of len i0 (h : list (option f64)) x u : (1 <= len)%nat -> no_nan (present (h ++ [Some x])) -> highest_out len i0 (h ++ [Some x]) = Some u -> Bleb x u = true.
  Proof.
    intros L N E. unfold highest_out in E. destruct (len <=? _)%nat; [|discriminate].
    assert (N' : no_nan (present (lastn len (h ++ [Some x])))).
    { apply Forall_forall. intros y Hy. unfold no_nan in N. rewrite Forall_forall in N. apply N. unfold lastn in Hy. rewrite <- (firstn_skipn (length (h ++ [Some x]) - len) (h ++ [Some x])), PExact.present_app'. apply in_or_app. right. exact Hy. }
    pose proof (best_max _ N') as G. rewrite E in G. destruct G as [_ G]. rewrite Forall_forall in G. apply G.
    destruct len as [|n]; [lia|]. rewrite lastn_S_snoc, PExact.present_app'. apply in_or_app. right. left. reflexivity.
  Qed.
  Lemma bottom_of len i0 (h : list (option f64)) x d : (1 <= len)%nat -> no_nan (present (h ++ [Some x])) -> lowest_out len i0 (h ++ [Some x]) = Some d -> Bleb d x = true.
  Proof.
    intros L N E. unfold lowest_out in E. destruct (len <=? _)%nat; [|discriminate].
    assert (N' : no_nan (present (lastn len (h ++ [Some x])))).
    { apply Forall_forall. intros y Hy. unfold no_nan in N. rewrite Forall_forall in N. apply N. unfold lastn in Hy. rewrite <- (firstn_skipn (length (h ++ [Some x]) - len) (h ++ [Some x])), PExact.present_app'. apply in_or_app. right. exact Hy. }
    pose proof (best_min _ N') as G. rewrite E in G. destruct G as [_ G]. rewrite Forall_forall in G. apply G.
    destruct len as [|n]; [lia|]. rewrite lastn_S_snoc, PExact.present_app'. apply in_or_app. right. left. reflexivity.
  Qed.
  (** a value between the low and the high of its bar. *)
  Definition inside (s : option f64) (b : bar f64) : Prop := exists v h l,
    s = Some v /\ b_high b = Some h /\ b_low b = Some l /\ Bleb l v = true /\ Bleb v h = true.
  Lemma le_trans64 (x y z : f64) : Bleb x y = true -> Bleb y z = true -> Bleb x z = true.
  Proof. intros A B. exact (@Laws.le_trans f64 N107 O107 x y z A B). Qed.
  Theorem C107_williams len c src ss bs os : (1 <= len)%nat -> feeds c src ss -> fresh_over c bs -> Forall2 inside ss bs ->
    run_new (wpr_new src len) wpr_step c (ticks (length bs)) = Ok os -> all_values (between (f64_ofZ (-100)) (f64_ofZ 0)) os.
  Proof.
    intros L HF FO H E. assert (LN := Forall2_len _ _ _ H).
    assert (E1 : map fst (combine ss bs) = ss) by (clear - LN; revert bs LN; induction ss; intros [|b bs] LN; cbn in *; try lia; f_equal; auto).
    assert (E2 : map snd (combine ss bs) = bs) by (clear - LN; revert bs LN; induction ss; intros [|b bs] LN; cbn in *; try lia; f_equal; auto).
    assert (HC : Forall (fun z => inside (fst z) (snd z)) (combine ss bs)) by (clear - H; induction H; constructor; auto).
    assert (E3 : length (combine ss bs) = length bs) by (rewrite combine_length; lia).
    set (zs := combine ss bs) in *. clearbody zs. subst ss bs. rewrite <- E3 in E. rewrite (wpr_run len c src zs L HF FO) in E. injection E as <-.
    apply all_each. intros i v Li Hv. apply (prefix_all _ _ (S i)) in HC. revert HC Hv. assert (NN : firstn (S i) zs <> []) by (destruct zs; [cbn in Li; lia|discriminate]).
    generalize dependent (firstn (S i) zs). intros p NN HC Hv. destruct p as [|[s b] p] using rev_ind; [congruence|]. clear IHp NN.
    assert (NH : no_nan (present (map (fun z : option f64 * bar f64 => b_high (snd z)) (p ++ [(s, b)])))).
    { apply Forall_forall. intros y Hy. apply present_In in Hy. apply in_map_iff in Hy. destruct Hy as (z & Ez & Hz). rewrite Forall_forall in HC. destruct (HC z Hz) as (w & h & l & _ & Eh & _ & _ & B). rewrite Ez in Eh. injection Eh as <-. apply (not_nan_lr _ _ B). }
    assert (NL : no_nan (present (map (fun z : option f64 * bar f64 => b_low (snd z)) (p ++ [(s, b)])))).
    { apply Forall_forall. intros y Hy. apply present_In in Hy. apply in_map_iff in Hy. destruct Hy as (z & Ez & Hz). rewrite Forall_forall in HC. destruct (HC z Hz) as (w & h & l & _ & _ & El & B & _). rewrite Ez in El. injection El as <-. apply (not_nan_lr _ _ B). }
    apply Forall_app in HC. destruct HC as [_ HC]. inversion HC as [|? ? (w & h & l & Es & Eh & El & B1 & B2)]; subst. cbn [fst snd] in *.
    rewrite !map_app in NH, NL. cbn [map snd] in NH, NL. rewrite Eh in NH. rewrite El in NL.
    unfold wpr_out in Hv. rewrite cur_snoc, !map_app in Hv. cbn [map fst snd] in Hv. rewrite Es, Eh, El in Hv.
    destruct (highest_out len 0 _) as [u|] eqn:U; [|discriminate]. destruct (lowest_out len 0 _) as [d|] eqn:D; [|discriminate].
    apply top_of in U; [|exact L|exact NH]. apply bottom_of in D; [|exact L|exact NL].
    assert (Bw : Bleb d w = true) by (apply le_trans64 with l; assumption). assert (Bu : Bleb w u = true) by (apply le_trans64 with h; assumption).
    assert (Bd : Bleb d u = true) by (apply le_trans64 with w; assumption).
    assert (Uu : Bleb u u = true). { apply (@Laws.le_refl f64 N107 O107). apply (not_nan_lr _ _ Bu). }
    destruct (spread d u w u Bw Bu Bd Uu) as [S1 S2].
    unfold wpr_value, ps_diff, ps_div, times100 in Hv. destruct (fsub u d ==? z64 0)%num eqn:ZD; [discriminate|]. unfold option_map in Hv. apply some_inj in Hv. subst v.
    apply (hundred (Bdiv mode_NE (Bminus mode_NE w u) (Bminus mode_NE u d)) (-1) 0); [lia..|].
    pose proof (ratio _ _ S1 S2) as R0. apply between_above; [reflexivity..|]. apply between_above in R0; [|reflexivity..]. split; [apply R0|].
    assert (DN : pz (Bminus mode_NE u d)). { destruct (le_sub_nz d u Bd) as [DN|DN]; [exact DN|]. change (Beqb (Bminus mode_NE u d) (f64_ofZ 0) = false) in ZD. rewrite DN in ZD. discriminate. }
    assert (NU : not_above (Bminus mode_NE w u) (f64_ofZ 0)).
    { apply not_above_cases. destruct (is_finite u) eqn:Fu.
      - destruct (is_finite w) eqn:Fw; [|destruct w as [?|[|]| |]; try discriminate; destruct u as [?|[|]| |[|] ? ? ?]; try discriminate; cbn; auto 6].
        pose proof (minus_rounded w u Fw Fu) as K. apply not_above_cases. apply (rounded_mono _ _ _ 0 K).
        + left. rewrite round_0 by apply valid_rnd_round_mode. rewrite Rabs_R0. repeat split. apply bpow_gt_0.
        + rewrite Bleb_correct in Bu by assumption. destruct (Rle_bool_spec (B2R w) (B2R u)); [lra|discriminate].
      - destruct u as [?|[|]| |]; try discriminate; destruct w as [?|[|]| |[|] ? ? ?]; try discriminate; cbn; auto 6. }
    pose proof (div_mono (Bminus mode_NE u d) _ _ DN NU) as K. change (Beqb (Bminus mode_NE u d) (f64_ofZ 0) = false) in ZD.
    generalize dependent (Bminus mode_NE u d). intros D' S1 S2 ZD R0 DN K.
    destruct D' as [[|]|[|]| |[|] md ed Hd]; try (destruct DN; discriminate); try discriminate.
    - apply above_trans with (2 := K); [reflexivity|apply not_above_refl].
    - apply not_above_cases. left. destruct (Bminus mode_NE w u); reflexivity.
    - apply above_trans with (2 := K); [reflexivity|apply not_above_refl].
  Qed.

  (** ** Connors RSI *)
  Theorem C107_connors a b d c src vs os : (2 <= a)%nat -> (2 <= b)%nat -> (1 <= d)%nat ->
    (Z.of_nat a <= 2 ^ 53)%Z -> (Z.of_nat b <= 2 ^ 53)%Z -> (Z.of_nat d <= 2 ^ 53)%Z -> c_index c = 0%nat -> feeds c src (map Some vs) ->
    run_new (crsi_new src a b d) crsi_step c (ticks (length vs)) = Ok os -> all_values (between (f64_ofZ 0) (f64_ofZ 100)) os.
  Proof.
    intros La Lb Ld La' Lb' Ld' CZ HF E.
    assert (W : warmed (map Some vs)) by (exists 0%nat, vs; reflexivity).
    destruct (C61_connors a b d c src _ La Lb Ld HF W) as (rs & us & rocs & ks & os' & R1 & R2 & R3 & R4 & R5 & EO).
    rewrite map_length, E in R5. injection R5 as <-. subst os.
    assert (V1 : all_values (between (f64_ofZ 0) (f64_ofZ 100)) rs).
    { rewrite (makes_run _ _ _ _ c _ (rsi_makes a La) W) in R1. injection R1 as <-. apply all_each. intros i v _ Hv. exact (rsi_out_range log10 a _ v La La' Hv). }
    assert (V2 : all_values (between (f64_ofZ 0) (f64_ofZ 100)) us).
    { rewrite (makes_run _ _ _ _ c _ (rsi_makes b Lb)) in R2 by (rewrite streaks_each; apply PContent2.ud_out_warmed). injection R2 as <-. apply all_each. intros i v _ Hv. exact (rsi_out_range log10 b _ v Lb Lb' Hv). }
    assert (V3 : all_values (between (f64_ofZ 0) (f64_ofZ 100)) ks).
    { intros v Hv. apply In_nth_error in Hv. destruct Hv as [i Hi]. right. exact (C21_prank_range log10 d c rocs ks i v Ld Ld' CZ R4 Hi). }
    intros v Hv. unfold zip3, zip in Hv. apply in_map_iff in Hv. destruct Hv as ([[r u] k] & Ev & Hc).
    assert (H12 := in_combine_l _ _ _ _ Hc). assert (H3 := in_combine_r _ _ _ _ Hc). assert (H1 := in_combine_l _ _ _ _ H12). assert (H2 := in_combine_r _ _ _ _ H12).
    cbn [fst snd] in Ev. destruct r as [r|], u as [u|], k as [k|]; try discriminate. apply some_inj in Ev. subst v.
    specialize (V1 r H1). specialize (V2 u H2). specialize (V3 k H3).
    apply between_above in V1, V2, V3; [|reflexivity..]. apply between_above; [reflexivity..|].
    assert (S0 : Bdiv mode_NE (Bplus mode_NE (Bplus mode_NE (f64_ofZ 0) (f64_ofZ 0)) (f64_ofZ 0)) (f64_ofZ 3) = f64_ofZ 0) by (apply B2SF_inj; vm_compute; reflexivity).
    assert (S1 : Bdiv mode_NE (Bplus mode_NE (Bplus mode_NE (f64_ofZ 100) (f64_ofZ 100)) (f64_ofZ 100)) (f64_ofZ 3) = f64_ofZ 100) by (apply B2SF_inj; vm_compute; reflexivity).
    rewrite <- S0 at 1. rewrite <- S1.
    split; (apply div_mono; [right; reflexivity|]); (apply plus_mono; [apply plus_mono|]); try apply V1; try apply V2; apply V3.
  Qed.

  (** ** Stochastic: at most one rounding step above 100.  [over_100] is the
      next number after 100. *)
  Definition over_100 : f64 := @B754_finite 53 1024 false 7036874417766401 (-46) eq_refl.
  Lemma over_100_value : B2R over_100 = 100 + bpow radix2 (-46).
  Proof.
    unfold over_100, B2R, F2R. cbn [Fnum Fexp cond_Zopp]. assert (bpow radix2 46 * bpow radix2 (-46) = 1) by (rewrite <- bpow_plus; reflexivity).
    replace (IZR (Z.pos 7036874417766401)) with (100 * bpow radix2 46 + 1) by (change (bpow radix2 46) with (IZR (2 ^ 46)); rewrite <- mult_IZR, <- plus_IZR; reflexivity).
    lra.
  Qed.
  Lemma hundred_error (d : f64) : is_finite d = true -> 0 < B2R d -> rnd (100 * B2R d) <= 100 * B2R d * (1 + bpow radix2 (-53)).
  Proof.
    intros Fd P. assert (VE : Valid_exp fexp64) by apply (fexp_correct 53 1024 eq_refl).
    destruct (Rle_lt_dec (bpow radix2 (-1022)) (100 * B2R d)) as [N|N].
    - pose proof (relative_error_N_FLT radix2 (-1074) 53 ltac:(lia) (fun x => negb (Z.even x)) (100 * B2R d)) as K.
      rewrite Rabs_pos_eq in K by lra. specialize (K N). apply Rabs_le_inv in K.
      replace (/ 2 * bpow radix2 (- (53) + 1)) with (bpow radix2 (-53)) in K by (change (- (53) + 1)%Z with (-53 + 1)%Z; rewrite bpow_plus; change (bpow radix2 1) with 2; lra).
      change (FLT_exp (-1074) 53) with fexp64 in K. change (ZnearestE) with (round_mode mode_NE) in K. lra.
    - rewrite round_generic; [|apply valid_rnd_round_mode|].
      + pose proof (bpow_gt_0 radix2 (-53)). assert (0 < 100 * B2R d * bpow radix2 (-53)) by (apply Rmult_lt_0_compat; lra). lra.
      + pose proof (generic_format_B2R 53 1024 d) as G. apply (FLT_format_generic radix2 (-1074) 53) in G. destruct G as [f E B1 B2].
        apply (generic_format_FLT radix2 (-1074) 53). apply FLT_spec with (Float radix2 (100 * Fnum f) (Fexp f)).
        * rewrite E. unfold F2R. cbn [Fnum Fexp]. rewrite mult_IZR. ring.
        * cbn [Fnum Fexp] in *. rewrite E in N, P. unfold F2R in N, P. apply lt_IZR. rewrite abs_IZR, mult_IZR.
          assert (M : 0 < IZR (Fnum f)) by (apply Rmult_lt_reg_r with (bpow radix2 (Fexp f)); [apply bpow_gt_0|lra]).
          rewrite Rabs_pos_eq by lra. apply Rmult_lt_reg_r with (bpow radix2 (Fexp f)); [apply bpow_gt_0|].
          apply Rlt_le_trans with (bpow radix2 (-1022)); [rewrite Rmult_assoc; exact N|].
          change (IZR (radix2 ^ 53)) with (bpow radix2 53). rewrite <- bpow_plus. apply bpow_le. lia.
        * exact B2.
  Qed.
  Lemma stoch_range (v u d : f64) : is_finite u = true -> is_finite d = true -> Rabs (B2R u) <= bpow radix2 1000 -> Rabs (B2R d) <= bpow radix2 1000 ->
    Bleb d v = true -> Bleb v u = true -> Beqb (Bminus mode_NE u d) (f64_ofZ 0) = false ->
    Bleb (f64_ofZ 0) (Bdiv mode_NE (Bmult mode_NE (f64_ofZ 100) (Bminus mode_NE v d)) (Bminus mode_NE u d)) = true /\
    Bleb (Bdiv mode_NE (Bmult mode_NE (f64_ofZ 100) (Bminus mode_NE v d)) (Bminus mode_NE u d)) over_100 = true.
  Proof.
    intros Fu Fd Mu Md B1 B2 NZ. destruct (le_fin d v u Fd Fu B1 B2) as [Fv Bv].
    apply Rabs_le_inv in Mu, Md. assert (P2 : 0 < bpow radix2 1000) by apply bpow_gt_0.
    assert (BIG : forall r, Rabs r <= 2 * bpow radix2 1000 -> Rabs (rnd r) <= 2 * bpow radix2 1000).
    { intros r Hr. change (2 * bpow radix2 1000) with (bpow radix2 1 * bpow radix2 1000) in *. rewrite <- bpow_plus in *. apply abs_round_le_generic; [apply (fexp_correct 53 1024 eq_refl)|apply valid_rnd_round_mode| |exact Hr].
      apply generic_format_bpow. cbn. lia. }
    assert (TOP : 1000 * bpow radix2 1000 < bpow radix2 1024).
    { change 1024%Z with (24 + 1000)%Z. rewrite (bpow_plus radix2 24). apply Rmult_lt_compat_r; [exact P2|]. change (bpow radix2 24) with (IZR (2 ^ 24)). apply IZR_lt. lia. }
    assert (MIN : forall x y : f64, is_finite x = true -> is_finite y = true -> Rabs (B2R x - B2R y) <= 2 * bpow radix2 1000 ->
      is_finite (Bminus mode_NE x y) = true /\ B2R (Bminus mode_NE x y) = rnd (B2R x - B2R y)).
    { intros x y Fx Fy H. pose proof (Bminus_correct 53 1024 _ _ mode_NE x y Fx Fy) as C. rewrite Rlt_bool_true in C; [|apply Rle_lt_trans with (1 := BIG _ H); lra]. destruct C as (C & F & _). auto. }
    destruct (MIN v d Fv Fd ltac:(apply Rabs_le; lra)) as [Fn En]. destruct (MIN u d Fu Fd ltac:(apply Rabs_le; lra)) as [Fr Er].
    assert (N0 : 0 <= B2R (Bminus mode_NE v d)) by (rewrite En, <- (round_0 radix2 fexp64 (round_mode mode_NE)); apply rnd_le; lra).
    assert (N1 : B2R (Bminus mode_NE v d) <= B2R (Bminus mode_NE u d)) by (rewrite En, Er; apply rnd_le; lra).
    assert (N2 : B2R (Bminus mode_NE u d) <= 2 * bpow radix2 1000) by (rewrite Er; eapply Rle_trans; [apply Rle_abs|apply BIG; apply Rabs_le; lra]).
    assert (NZ' : B2R (Bminus mode_NE u d) <> 0). { rewrite Beqb_correct in NZ by (try exact Fr; reflexivity). change (B2R (f64_ofZ 0)) with 0 in NZ. destruct (Req_bool_spec (B2R (Bminus mode_NE u d)) 0); [discriminate|assumption]. }
    revert Fn Fr N0 N1 N2 NZ'. generalize (Bminus mode_NE v d), (Bminus mode_NE u d). intros n r Fn Fr N0 N1 N2 NZ'. clear - log10 Fn Fr N0 N1 N2 NZ' TOP P2.
    destruct (f64_ofZ_correct 100 ltac:(lia)) as [V1 F1]. assert (P : 0 < B2R r) by lra.
    pose proof (Bmult_correct 53 1024 _ _ mode_NE (f64_ofZ 100) n) as C. rewrite V1 in C. change (IZR 100) with 100 in C.
    pose proof (hundred_error r Fr P) as HE. assert (U : rnd (100 * B2R n) <= rnd (100 * B2R r)) by (apply rnd_le; lra).
    assert (S : bpow radix2 (-53) <= 1) by (apply (bpow_le radix2 (-53) 0); lia).
    assert (L0 : 0 <= rnd (100 * B2R n)) by (rewrite <- (round_0 radix2 fexp64 (round_mode mode_NE)); apply rnd_le; lra).
    rewrite Rlt_bool_true in C.
    2:{ rewrite Rabs_pos_eq by exact L0. apply Rle_lt_trans with (1 := U). apply Rle_lt_trans with (1 := HE). nra. }
    destruct C as (Em & Fm & _). rewrite F1, Fn in Fm. cbn [andb] in Fm.
    apply (within_le log10); [reflexivity|reflexivity|]. apply (div_within log10); [exact Fm|exact Fr|exact NZ'|].
    change (B2R (f64_ofZ 0)) with 0. rewrite over_100_value, Em. split.
    - apply Rmult_le_pos; [exact L0|]. apply Rlt_le, Rinv_0_lt_compat, P.
    - apply Rmult_le_reg_r with (B2R r); [exact P|]. unfold Rdiv. rewrite Rmult_assoc, Rinv_l, Rmult_1_r by exact NZ'.
      apply Rle_trans with (1 := U). apply Rle_trans with (1 := HE).
      assert (Q : 100 * bpow radix2 (-53) <= bpow radix2 (-46)).
      { change (-46)%Z with (7 + -53)%Z. rewrite (bpow_plus radix2 7). apply Rmult_le_compat_r; [apply bpow_ge_0|]. change (bpow radix2 7) with 128. lra. }
      nra.
  Qed.
  (** a value between a low and a high of magnitude at most 2^1000. *)
  Definition sound (x : option f64 * option f64 * option f64) : Prop := exists v h l, x = (Some v, Some h, Some l) /\
    is_finite h = true /\ is_finite l = true /\ Rabs (B2R h) <= bpow radix2 1000 /\ Rabs (B2R l) <= bpow radix2 1000 /\ Bleb l v = true /\ Bleb v h = true.
  Theorem C107_stochastic len c xs os : (1 <= len)%nat -> Forall sound xs -> run_new (stoch_new len) stoch_step c xs = Ok os ->
    all_values (fun v => Bleb (f64_ofZ 0) v = true /\ Bleb v over_100 = true) os.
  Proof.
    intros L H E. rewrite (makes_run _ _ _ _ c xs (stoch_makes len L) I) in E. injection E as <-. apply all_each. intros i v _ Hv.
    apply (prefix_all _ _ (S i)) in H. revert H v Hv. generalize (firstn (S i) xs). clear xs i. intros p.
    induction p as [|x p IH] using rev_ind; intros H w Hw; [discriminate|].
    assert (HS := H). apply Forall_app in H. destruct H as [Hp Hx]. inversion Hx as [|? ? (v & h & l & -> & Fh & Fl & Mh & Ml & B1 & B2)]; subst.
    rewrite stoch_out_snoc in Hw. destruct (len <=? _)%nat; [|discriminate].
    set (hs := map (fun y : option f64 * option f64 * option f64 => snd (fst y)) p ++ [Some h]) in Hw. set (ls := map snd p ++ [Some l]) in Hw.
    assert (GH : forall y, In y (present (lastn len hs)) -> is_finite y = true /\ Rabs (B2R y) <= bpow radix2 1000).
    { intros y Hy. apply present_In in Hy. assert (HI : In (Some y) hs) by (unfold lastn in Hy; rewrite <- (firstn_skipn (length hs - len) hs); apply in_or_app; right; exact Hy).
      assert (Q : hs = map (fun y : option f64 * option f64 * option f64 => snd (fst y)) (p ++ [(Some v, Some h, Some l)])) by (unfold hs; rewrite map_app; reflexivity).
      rewrite Q in HI. apply in_map_iff in HI. destruct HI as (z & Ez & Hz). rewrite Forall_forall in HS. destruct (HS z Hz) as (v' & h' & l' & -> & K1 & _ & K2 & _). cbn in Ez. injection Ez as <-. auto. }
    assert (GL : forall y, In y (present (lastn len ls)) -> is_finite y = true /\ Rabs (B2R y) <= bpow radix2 1000).
    { intros y Hy. apply present_In in Hy. assert (HI : In (Some y) ls) by (unfold lastn in Hy; rewrite <- (firstn_skipn (length ls - len) ls); apply in_or_app; right; exact Hy).
      assert (Q : ls = map snd (p ++ [(Some v, Some h, Some l)])) by (unfold ls; rewrite map_app; reflexivity).
      rewrite Q in HI. apply in_map_iff in HI. destruct HI as (z & Ez & Hz). rewrite Forall_forall in HS. destruct (HS z Hz) as (v' & h' & l' & -> & _ & K1 & _ & K2 & _). cbn in Ez. injection Ez as <-. auto. }
    assert (NH : no_nan (present (lastn len hs))) by (apply Forall_forall; intros y Hy; destruct (GH y Hy) as [K _]; destruct y; try discriminate; reflexivity).
    assert (NL : no_nan (present (lastn len ls))) by (apply Forall_forall; intros y Hy; destruct (GL y Hy) as [K _]; destruct y; try discriminate; reflexivity).
    pose proof (best_max _ NH) as XH. pose proof (best_min _ NL) as XL.
    destruct (best (fun v m => m <? v)%num _) as [u|] in Hw, XH; [|discriminate]. destruct (best (fun v m => v <? m)%num _) as [d|] in Hw, XL; [|discriminate].
    destruct XH as [IU XU]. destruct XL as [ID XD]. rewrite Forall_forall in XU, XD.
    assert (HU : Bleb h u = true). { apply XU. destruct len as [|n]; [lia|]. unfold hs. rewrite lastn_S_snoc, PExact.present_app'. apply in_or_app. right. left. reflexivity. }
    assert (HD : Bleb d l = true). { apply XD. destruct len as [|n]; [lia|]. unfold ls. rewrite lastn_S_snoc, PExact.present_app'. apply in_or_app. right. left. reflexivity. }
    destruct (fsub u d ==? z64 0)%num eqn:ZD.
    - exact (IH Hp w Hw).
    - apply some_inj in Hw. subst w. unfold stoch_val. destruct (GH u IU) as [Fu Mu]. destruct (GL d ID) as [Fd Md].
      apply stoch_range; try assumption; [apply le_trans64 with l; assumption|apply le_trans64 with h; assumption].
  Qed.
End Ranges.

(** ** What does leave its range. *)
(** A close of 1.11 equal to the high, over a low of 1, has stochastic 100.00000000000001. *)
Definition x111 : f64 := lit 111 100.
Theorem C107_stochastic_over : sound (Some x111, Some x111, Some (q 1)) /\
  gives same_opt (run_new (stoch_new 1) stoch_step ctx6 [(Some x111, Some x111, Some (q 1))]) [Some over_100] = true /\
  Bltb (f64_ofZ 100) over_100 = true.
Proof.
  split; [|split; vm_compute; reflexivity].
  assert (B : forall x : f64, is_finite x = true -> Bleb (f64_ofZ (-200)) x = true -> Bleb x (f64_ofZ 200) = true -> Rabs (B2R x) <= bpow radix2 1000).
  { intros x Fx A1 A2. destruct (f64_ofZ_correct 200 ltac:(lia)) as [V F]. destruct (f64_ofZ_correct (-200) ltac:(lia)) as [V' F'].
    rewrite Bleb_correct in A1, A2 by assumption. rewrite V' in A1. rewrite V in A2.
    apply Rle_trans with 200; [|apply Rle_trans with (bpow radix2 8); [change (bpow radix2 8) with 256; lra|apply bpow_le; lia]].
    destruct (Rle_bool_spec (IZR (-200)) (B2R x)); [|discriminate]. destruct (Rle_bool_spec (B2R x) (IZR 200)); [|discriminate]. apply Rabs_le; split; [lra|lra]. }
  exists x111, x111, (q 1). split; [reflexivity|]. split; [vm_compute; reflexivity|]. split; [vm_compute; reflexivity|].
  split; [apply B; vm_compute; reflexivity|]. split; [apply B; vm_compute; reflexivity|]. split; vm_compute; reflexivity.
Qed.
(** On closes 1.3, 0.3, 0.1, 0.3, 0.7, 1.1, 1.1, 1.1 the Chande Momentum
    Oscillator of length 2 (whose value in exact arithmetic never leaves
    [-100, 100], and is undefined on the last bar, where nothing has moved)
    reports 300: its two running sums keep rounding residues of opposite sign. *)
Definition at_price (p : f64) : bar f64 := mkBar (Some p) (Some p) (Some p) (Some p) (Some (q 1)).
Definition swings : list (bar f64) := map (fun z => at_price (lit z 10)) [13; 3; 1; 3; 7; 11; 11; 11]%Z.
Definition last_is (r : res (list (option f64))) (v : f64) : bool :=
  match r with Ok os => same_opt (last os None) (Some v) | Panic => false end.
Theorem C107_momentum_escapes :
  last_is (c <- ctx_over swings ;; run_new (cmo_new (src_box SClose) 2) cmo_step c (ticks 8)) (q 300) = true.
Proof. vm_compute. reflexivity. Qed.

(** ** Cases meeting the hypotheses above, with values on both sides. *)
Definition lowest_value (os : list (option f64)) : f64 := fold_left (fun m o => match o with Some v => if Bltb v m then v else m | None => m end) os (q 1000).
Definition greatest_value (os : list (option f64)) : f64 := fold_left (fun m o => match o with Some v => if Bltb m v then v else m | None => m end) os (q (-1000)).
Definition spanning {A} (get : A -> option f64) (r : res (list A)) (a b : Z) : bool :=
  match r with
  | Ok os => Bltb (lowest_value (map get os)) (q a) && Bltb (q b) (greatest_value (map get os))
  | Panic => false
  end.
Definition on_bars6 {S O} (new : res S) (step : ctx f64 -> S -> unit -> res (S * O)) : res (list O) := run_new new step ctx6 (ticks 6).
Example C107_ex_hyps : Forall upright bars6 /\ Forall consistent_bar bars6 /\ Forall2 inside (map b_close bars6) bars6.
Proof.
  split; [|split].
  - repeat constructor; (do 2 eexists; split; [reflexivity|]; split; [reflexivity|]; vm_compute; reflexivity).
  - repeat constructor; (do 4 eexists; do 4 (split; [reflexivity|]); repeat split; vm_compute; reflexivity).
  - repeat constructor; (do 3 eexists; do 3 (split; [reflexivity|]); repeat split; vm_compute; reflexivity).
Qed.
Example C107_ex :
  spanning snd (on_bars6 (dmi_new 2 2) dmi_step) 62 72 = true /\ spanning (fun o => fst (fst o)) (on_bars6 (dmi_new 2 2) dmi_step) 10 50 = true /\
  spanning (fun o => o) (on_bars6 (Ok tt) bop_step) 0 0 = true /\
  spanning (fun o => o) (on_bars6 (wpr_new (src_box SClose) 2) wpr_step) (-80) (-15) = true /\
  spanning (fun o => o) (on_bars6 (crsi_new (src_box SClose) 2 2 2) crsi_step) 20 90 = true.
Proof. vm_compute. repeat split. Qed.
