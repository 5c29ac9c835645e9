(** * PIeee: ranges of f64 computations. *)
From Flocq Require Import Core IEEE754.BinarySingleNaN.
From Verif Require Export IEEE PTa4.
Local Open Scope R_scope.

Section Ieee.
  Variable log10 : f64 -> f64.
  #[local] Instance NF64 : Num f64 := IEEE log10.
  #[local] Instance OF64 : OrdNum f64 := IEEEOrd log10.

  Notation z64 := (@fZ f64 NF64).
  Notation n64 := (@fnat f64 NF64).
  Notation fexp64 := (SpecFloat.fexp 53 1024).
  Notation rnd r := (round radix2 fexp64 (round_mode mode_NE) r).

  #[local] Instance vexp : Valid_exp fexp64.
  Proof. apply fexp_correct. reflexivity. Qed.
  Lemma fmt (x : f64) : generic_format radix2 fexp64 (B2R x).
  Proof. apply generic_format_B2R. Qed.

  (** rounding keeps a real between two floats between them. *)
  Lemma rnd_between (a b : f64) r : B2R a <= r <= B2R b -> B2R a <= rnd r <= B2R b.
  Proof.
    intros [A B]. split.
    - apply round_ge_generic; auto with typeclass_instances. apply fmt.
    - apply round_le_generic; auto with typeclass_instances. apply fmt.
  Qed.
  Lemma abs_lt (a b : f64) r : B2R a <= r <= B2R b -> Rabs r < bpow radix2 1024.
  Proof.
    intros [A B]. pose proof (abs_B2R_lt_emax 53 1024 a). pose proof (abs_B2R_lt_emax 53 1024 b).
    apply Rabs_def2 in H. apply Rabs_def2 in H0. apply Rabs_def1; lra.
  Qed.

  (** one operation: if the exact result lies between two finite floats, so
      does the rounded one, and it is finite. *)
  Definition within (a b x : f64) : Prop := is_finite x = true /\ B2R a <= B2R x <= B2R b.

  Lemma plus_within a b x y : is_finite x = true -> is_finite y = true ->
    B2R a <= B2R x + B2R y <= B2R b -> within a b (fadd x y).
  Proof.
    intros Fx Fy H. pose proof (Bplus_correct 53 1024 _ _ mode_NE x y Fx Fy) as C.
    pose proof (rnd_between _ _ _ H) as R.
    rewrite Rlt_bool_true in C by (apply (abs_lt a b); exact R). destruct C as (E & Fz & _).
    split; [exact Fz|]. cbn. rewrite E. exact R.
  Qed.
  Lemma minus_within a b x y : is_finite x = true -> is_finite y = true ->
    B2R a <= B2R x - B2R y <= B2R b -> within a b (fsub x y).
  Proof.
    intros Fx Fy H. pose proof (Bminus_correct 53 1024 _ _ mode_NE x y Fx Fy) as C.
    pose proof (rnd_between _ _ _ H) as R.
    rewrite Rlt_bool_true in C by (apply (abs_lt a b); exact R). destruct C as (E & Fz & _).
    split; [exact Fz|]. cbn. rewrite E. exact R.
  Qed.
  Lemma mult_within a b x y : is_finite x = true -> is_finite y = true ->
    B2R a <= B2R x * B2R y <= B2R b -> within a b (fmul x y).
  Proof.
    intros Fx Fy H. pose proof (Bmult_correct 53 1024 _ _ mode_NE x y) as C.
    pose proof (rnd_between _ _ _ H) as R.
    rewrite Rlt_bool_true in C by (apply (abs_lt a b); exact R). destruct C as (E & Fz & _).
    split; [cbn; rewrite Fz, Fx, Fy; reflexivity|]. cbn. rewrite E. exact R.
  Qed.
  Lemma div_within a b x y : is_finite x = true -> is_finite y = true -> B2R y <> 0 ->
    B2R a <= B2R x / B2R y <= B2R b -> within a b (fdiv x y).
  Proof.
    intros Fx Fy N H. pose proof (Bdiv_correct 53 1024 _ _ mode_NE x y N) as C.
    pose proof (rnd_between _ _ _ H) as R.
    rewrite Rlt_bool_true in C by (apply (abs_lt a b); exact R). destruct C as (E & Fz & _).
    split; [cbn; rewrite Fz, Fx; reflexivity|]. cbn. rewrite E. exact R.
  Qed.

  Lemma within_le a b x : is_finite a = true -> is_finite b = true -> within a b x ->
    fleb a x = true /\ fleb x b = true.
  Proof.
    intros Fa Fb [Fx [A B]]. cbn. rewrite !Bleb_correct by assumption. split; apply Rle_bool_true; assumption.
  Qed.

  (** ** Sign propagation *)
  (** positive-signed (in particular not [-0.0]), or NaN. *)
  Definition pz (x : f64) : Prop := is_nan x = true \/ Bsign x = false.
  (** not negative ([-0.0] allowed), or NaN. *)
  Definition nz (x : f64) : Prop := pz x \/ x = B754_zero true.

  Lemma pz_nz x : pz x -> nz x. Proof. left; assumption. Qed.
  Lemma B2R_pz (x : f64) : pz x -> 0 <= B2R x.
  Proof.
    intros [H|H]; destruct x as [s|s| |s m e Hb]; cbn in *; try discriminate; try lra.
    subst s. apply Rlt_le, F2R_gt_0. reflexivity.
  Qed.
  Lemma B2R_nz (x : f64) : nz x -> 0 <= B2R x.
  Proof. intros [H| ->]; [apply B2R_pz; exact H|cbn; lra]. Qed.

  Lemma sf_inf (z : f64) s : B2SF z = SpecFloat.S754_infinity s -> z = B754_infinity s.
  Proof. destruct z; cbn; intros E; try discriminate. injection E as ->; reflexivity. Qed.

  Lemma finite_plus_sign (x y : f64) : is_finite x = true -> is_finite y = true ->
    pz x -> nz y -> pz (fadd x y).
  Proof.
    intros Fx Fy Hx Hy. pose proof (Bplus_correct 53 1024 _ _ mode_NE x y Fx Fy) as C.
    pose proof (B2R_pz _ Hx) as Px. pose proof (B2R_nz _ Hy) as Py.
    assert (Sx : Bsign x = false) by (destruct Hx as [H|H]; [destruct x; discriminate|exact H]).
    destruct (Rlt_bool _ _).
    - destruct C as (_ & _ & S). right. cbn. rewrite S. destruct (Rcompare_spec (B2R x + B2R y) 0); [lra| |reflexivity].
      rewrite Sx. reflexivity.
    - destruct C as [C S]. cbn in C. apply sf_inf in C. right. cbn. rewrite C. exact Sx.
  Qed.
  Lemma finite_plus_sign_r (x y : f64) : is_finite x = true -> is_finite y = true ->
    nz x -> pz y -> pz (fadd x y).
  Proof.
    intros Fx Fy Hx Hy. pose proof (Bplus_correct 53 1024 _ _ mode_NE x y Fx Fy) as C.
    pose proof (B2R_nz _ Hx) as Px. pose proof (B2R_pz _ Hy) as Py.
    assert (Sy : Bsign y = false) by (destruct Hy as [H|H]; [destruct y; discriminate|exact H]).
    destruct (Rlt_bool _ _).
    - destruct C as (_ & _ & S). right. cbn. rewrite S. destruct (Rcompare_spec (B2R x + B2R y) 0); [lra| |reflexivity].
      rewrite Sy. apply andb_false_r.
    - destruct C as [C S]. cbn in C. apply sf_inf in C. right. cbn. rewrite C, S. exact Sy.
  Qed.
  Lemma plus_pz (x y : f64) : pz x -> nz y -> pz (fadd x y).
  Proof.
    intros Hx Hy. destruct (is_finite x) eqn:Fx, (is_finite y) eqn:Fy.
    - apply finite_plus_sign; assumption.
    - destruct y as [s|s| |s m e Hb]; try discriminate.
      + destruct Hy as [[H|H]|H]; try discriminate. cbn in H; subst s. right. destruct x as [[]|[]| |[]]; reflexivity || (destruct Hx as [H|H]; discriminate) || idtac.
      + left. destruct x as [[]|[]| |[]]; reflexivity.
    - destruct x as [s|s| |s m e Hb]; try discriminate.
      + destruct Hx as [H|H]; try discriminate. cbn in H; subst s. right. destruct y as [[]|[]| |[]]; try discriminate; reflexivity.
      + left. destruct y as [[]|[]| |[]]; reflexivity.
    - destruct x as [s|s| |s m e Hb]; try discriminate.
      + destruct Hx as [H|H]; try discriminate. cbn in H; subst s.
        destruct y as [s|s| |s m e Hb]; try discriminate; [|left; reflexivity].
        destruct Hy as [[H|H]|H]; try discriminate. cbn in H; subst s. right; reflexivity.
      + left. destruct y as [[]|[]| |[]]; reflexivity.
  Qed.
  Lemma plus_pz_r (x y : f64) : nz x -> pz y -> pz (fadd x y).
  Proof.
    intros Hx Hy. destruct (is_finite x) eqn:Fx, (is_finite y) eqn:Fy.
    - apply finite_plus_sign_r; assumption.
    - destruct y as [s|s| |s m e Hb]; try discriminate.
      + destruct Hy as [H|H]; try discriminate. cbn in H; subst s. right. destruct x as [[]|[]| |[]]; try discriminate; reflexivity.
      + left. destruct x as [[]|[]| |[]]; reflexivity.
    - destruct x as [s|s| |s m e Hb]; try discriminate.
      + destruct Hx as [[H|H]|H]; try discriminate. cbn in H; subst s. right. destruct y as [[]|[]| |[]]; try discriminate; reflexivity.
      + left. destruct y as [[]|[]| |[]]; reflexivity.
    - destruct y as [s|s| |s m e Hb]; try discriminate.
      + destruct Hy as [H|H]; try discriminate. cbn in H; subst s.
        destruct x as [s|s| |s m e Hb]; try discriminate; [|left; reflexivity].
        destruct Hx as [[H|H]|H]; try discriminate. cbn in H; subst s. right; reflexivity.
      + left. destruct x as [[]|[]| |[]]; reflexivity.
  Qed.

  Lemma nz_sign (x : f64) : nz x -> is_nan x = true \/ Bsign x = false \/ x = B754_zero true.
  Proof. intros [[H|H]|H]; auto. Qed.

  Lemma mult_pz (x y : f64) : pz x -> pz y -> pz (fmul x y).
  Proof.
    intros Hx Hy. unfold pz in *. destruct (is_nan (fmul x y)) eqn:N; [left; reflexivity|right].
    destruct Hx as [Hx|Hx]; [destruct x; try discriminate; cbn in N; destruct y; discriminate|].
    destruct Hy as [Hy|Hy]; [destruct y; try discriminate; destruct x; discriminate|].
    pose proof (Bmult_correct 53 1024 _ _ mode_NE x y) as C. destruct (Rlt_bool _ _).
    - destruct C as (_ & _ & S). cbn in *. rewrite S by exact N. rewrite Hx, Hy. reflexivity.
    - cbn in C. rewrite Hx, Hy in C. apply sf_inf in C. cbn. rewrite C. reflexivity.
  Qed.
  Lemma mult_nz (x y : f64) : pz x -> nz y -> nz (fmul x y).
  Proof.
    intros Hx [Hy| ->]; [left; apply mult_pz; assumption|].
    destruct x as [s|s| |s m e Hb].
    - destruct Hx as [H|H]; [discriminate|]. cbn in H; subst s. right; reflexivity.
    - left; left; reflexivity.
    - left; left; reflexivity.
    - destruct Hx as [H|H]; [discriminate|]. cbn in H; subst s. right; reflexivity.
  Qed.
  Lemma div_pz (x y : f64) : pz x -> pz y -> pz (fdiv x y).
  Proof.
    intros Hx Hy. unfold pz in *. destruct (is_nan (fdiv x y)) eqn:N; [left; reflexivity|right].
    destruct Hx as [Hx|Hx]; [destruct x; try discriminate; cbn in N; destruct y; discriminate|].
    destruct Hy as [Hy|Hy]; [destruct y; try discriminate; destruct x; discriminate|].
    destruct (Req_dec (B2R y) 0) as [Z|Z].
    - destruct y as [s|s| |s m e Hb]; cbn in Hy; subst; try discriminate.
      + destruct x as [s|s| |s m e Hb]; cbn in Hx; subst; try discriminate; reflexivity.
      + destruct x as [s|s| |s m e Hb]; cbn in Hx; subst; try discriminate; reflexivity.
      + destruct x; discriminate.
      + exfalso. cbn in Z. apply eq_0_F2R in Z. discriminate.
    - pose proof (Bdiv_correct 53 1024 _ _ mode_NE x y Z) as C. destruct (Rlt_bool _ _).
      + destruct C as (_ & _ & S). cbn in *. rewrite S by exact N. rewrite Hx, Hy. reflexivity.
      + cbn in C. rewrite Hx, Hy in C. apply sf_inf in C. cbn. rewrite C. reflexivity.
  Qed.

  Lemma ofZ_pos z : (0 < z <= 2 ^ 53)%Z -> is_finite (f64_ofZ z) = true /\ B2R (f64_ofZ z) = IZR z /\ Bsign (f64_ofZ z) = false.
  Proof.
    intros H. destruct (f64_ofZ_correct z ltac:(lia)) as [A B]. split; [exact B|]. split; [exact A|].
    assert (P : 0 < B2R (f64_ofZ z)) by (rewrite A; apply IZR_lt; lia).
    destruct (f64_ofZ z) as [s|s| |s m e Hb]; cbn in *; try discriminate; try lra.
    destruct s; [|reflexivity]. exfalso. revert P. apply Rle_not_lt, Rlt_le, F2R_lt_0. reflexivity.
  Qed.
  Lemma ofZ_0 : f64_ofZ 0 = B754_zero false.
  Proof. reflexivity. Qed.
  Lemma pz_fZ z : (0 <= z <= 2 ^ 53)%Z -> pz (z64 z).
  Proof.
    intros H. right. destruct (Z.eq_dec z 0) as [->|N]; [reflexivity|].
    apply (ofZ_pos z). lia.
  Qed.
  Lemma fin_fZ z : (Z.abs z <= 2 ^ 53)%Z -> is_finite (z64 z) = true /\ B2R (z64 z) = IZR z.
  Proof. intros H. destruct (f64_ofZ_correct z H) as [A B]. split; assumption. Qed.

  Lemma sum_pz (l : list f64) : Forall nz l -> pz (fsum l).
  Proof.
    unfold fsum. assert (P0 : pz (z64 0)) by (right; reflexivity). revert P0. generalize (z64 0).
    induction l as [|x l IH]; intros a Ha H; cbn [fold_left]; [exact Ha|]. inversion H; subst.
    apply IH; [apply plus_pz; assumption|assumption].
  Qed.

  (** the smoothing weight 1/len and its complement. *)
  Lemma inv_len len : (2 <= len)%nat -> (Z.of_nat len <= 2 ^ 53)%Z ->
    within (z64 0) (z64 1) (fdiv (z64 1) (n64 len)) /\ pz (fdiv (z64 1) (n64 len)) /\
    pz (fsub (z64 1) (fdiv (z64 1) (n64 len))).
  Proof.
    intros L B. destruct (fin_fZ 1 ltac:(lia)) as [F1 E1].
    destruct (ofZ_pos (Z.of_nat len) ltac:(lia)) as (Fl & El & Sl). fold (n64 len) in *.
    assert (Pl : 2 <= B2R (n64 len)). { unfold n64. change (fofZ (Z.of_nat len) : f64) with (f64_ofZ (Z.of_nat len)). rewrite El. apply IZR_le. lia. }
    assert (W : within (z64 0) (z64 1) (fdiv (z64 1) (n64 len))).
    { apply div_within; [exact F1|exact Fl|lra|]. rewrite E1. replace (B2R (z64 0)) with 0 by reflexivity.
      split; [apply Rmult_le_pos; [lra|left; apply Rinv_0_lt_compat; lra]|].
      apply Rmult_le_reg_r with (B2R (n64 len)); [lra|]. unfold Rdiv. rewrite Rmult_assoc, Rinv_l by lra. lra. }
    assert (P : pz (fdiv (z64 1) (n64 len))).
    { apply div_pz; [apply pz_fZ; lia|]. right. exact Sl. }
    split; [exact W|]. split; [exact P|].
    destruct W as [Fa [Wa Wb]]. rewrite E1 in Wb.
    assert (Wm : within (z64 0) (z64 1) (fsub (z64 1) (fdiv (z64 1) (n64 len)))).
    { apply minus_within; [exact F1|exact Fa|]. rewrite E1. replace (B2R (z64 0)) with 0 in * by reflexivity. lra. }
    right. pose proof (Bminus_correct 53 1024 _ _ mode_NE (z64 1) _ F1 Fa) as C.
    assert (H1 : B2R (z64 0) <= B2R (z64 1) - B2R (fdiv (z64 1) (n64 len) : f64) <= B2R (z64 1)).
    { rewrite E1. replace (B2R (z64 0)) with 0 in * by reflexivity. lra. }
    pose proof (rnd_between _ _ _ H1) as R.
    rewrite Rlt_bool_true in C by (apply (abs_lt (z64 0) (z64 1)); exact R). destruct C as (_ & _ & S).
    change (Bsign (Bminus mode_NE (z64 1) (fdiv (z64 1) (n64 len))) = false).
    etransitivity; [exact S|]. case Rcompare_spec; intros Hc; [|reflexivity|reflexivity].
    exact (False_ind _ (Rle_not_lt _ _ (proj1 H1) Hc)).
  Qed.

  Lemma rma_pz len vs e : (2 <= len)%nat -> (Z.of_nat len <= 2 ^ 53)%Z -> Forall nz vs ->
    ema_val (rma_alpha_of len) len vs = Some e -> pz e.
  Proof.
    intros L B H. unfold ema_val. destruct (Nat.eqb_spec len 1); [lia|].
    destruct (Nat.ltb_spec (length vs) len); [discriminate|]. intros E; injection E as <-.
    destruct (inv_len len L B) as (_ & Pa & Pb). fold (rma_alpha_of len) in *.
    rewrite <- (firstn_skipn len vs) in H. apply Forall_app in H. destruct H as [H1 H2].
    assert (P0 : pz (fdiv (fsum (firstn len vs)) (n64 len))).
    { apply div_pz; [apply sum_pz; exact H1|]. apply pz_fZ. lia. }
    assert (G : forall l a, pz a -> Forall nz l ->
      pz (fold_left (fun e v : f64 => fadd (fmul (rma_alpha_of len) v) (fmul (fsub (z64 1) (rma_alpha_of len)) e)) l a)).
    { induction l as [|x l IH]; intros a Ha Hl; cbn [fold_left]; [exact Ha|]. inversion Hl; subst.
      apply IH; [|assumption]. apply plus_pz_r; [apply mult_nz; assumption|apply mult_pz; assumption]. }
    exact (G _ _ P0 H2).
  Qed.

  (** gains and losses are never negative, whatever the inputs. *)
  Lemma le_0_nz (x : f64) : fleb (z64 0) x = true -> nz x.
  Proof.
    intros H. cbn in H. unfold nz, pz. destruct x as [[]|[]| |[]]; cbn in *; try discriminate; auto.
  Qed.
  Lemma gain_nz p v g : rsi_gain p v = Some g -> nz g.
  Proof.
    unfold rsi_gain. destruct p as [p|], v as [v|]; try discriminate. intros E; injection E as <-.
    apply le_0_nz. apply fmax_ge_r. reflexivity.
  Qed.
  Lemma neg_le (x : f64) : fleb x (z64 0) = true -> nz (fneg x).
  Proof.
    intros H. cbn in *. unfold nz, pz. destruct x as [[]|[]| |[]]; cbn in *; try discriminate; auto.
  Qed.
  Lemma loss_nz p v g : rsi_loss p v = Some g -> nz g.
  Proof.
    unfold rsi_loss. destruct p as [p|], v as [v|]; try discriminate. intros E; injection E as <-.
    apply neg_le. apply fmin_le_r. reflexivity.
  Qed.

  (** ** 100 - 100 / (1 + rs) *)
  Lemma pz_ge_one (x : f64) : pz x -> is_nan (fadd (z64 1) x) = false ->
    fadd (z64 1) x = B754_infinity false \/ (is_finite (fadd (z64 1) x) = true /\ 1 <= B2R (fadd (z64 1) x)).
  Proof.
    intros Hx N. destruct (fin_fZ 1 ltac:(lia)) as [F1 E1].
    destruct (is_finite x) eqn:Fx.
    - pose proof (Bplus_correct 53 1024 _ _ mode_NE (z64 1) x F1 Fx) as C.
      pose proof (B2R_pz _ Hx) as P. rewrite E1 in C.
      destruct (Rlt_bool _ _).
      + right. destruct C as (E & Fz & _). split; [exact Fz|]. cbn. cbn in E. rewrite E.
        rewrite <- E1. apply round_ge_generic; auto with typeclass_instances; [apply fmt|]. rewrite E1; lra.
      + left. destruct C as [C _]. cbn in C. apply sf_inf in C. exact C.
    - destruct x as [s|s| |s m e Hb]; try discriminate.
      destruct Hx as [H|H]; [discriminate|]. cbn in H. subst s. left. reflexivity.
  Qed.

  Lemma hundred_ratio (x : f64) : pz x -> is_nan (fadd (z64 1) x) = false ->
    within (z64 0) (z64 100) (fsub (z64 100) (fdiv (z64 100) (fadd (z64 1) x))).
  Proof.
    intros Hx N. destruct (fin_fZ 100 ltac:(lia)) as [F100 E100].
    assert (W : within (z64 0) (z64 100) (fdiv (z64 100) (fadd (z64 1) x))).
    { destruct (pz_ge_one x Hx N) as [E|[Fz G]].
      - rewrite E. split; [reflexivity|]. change (B2R (fdiv (z64 100) (B754_infinity false))) with 0. rewrite E100. replace (B2R (z64 0)) with 0 by reflexivity. lra.
      - apply div_within; [exact F100|exact Fz|lra|]. rewrite E100. replace (B2R (z64 0)) with 0 by reflexivity.
        set (y := B2R (fadd (z64 1) x)) in *. split.
        + apply Rmult_le_pos; [lra|left; apply Rinv_0_lt_compat; lra].
        + apply Rmult_le_reg_r with y; [lra|]. unfold Rdiv. rewrite Rmult_assoc, Rinv_l by lra. lra. }
    destruct W as [Fd [A B]]. apply minus_within; [exact F100|exact Fd|]. rewrite E100 in *.
    replace (B2R (z64 0)) with 0 in * by reflexivity. lra.
  Qed.

  Lemma nan_prop_div_sub (x : f64) : is_nan (fadd (z64 1) x) = true ->
    is_nan (fsub (z64 100) (fdiv (z64 100) (fadd (z64 1) x))) = true.
  Proof. intros H. destruct (fadd (z64 1) x); try discriminate. reflexivity. Qed.

  Lemma present_Forall {A} (P : A -> Prop) (l : list (option A)) :
    (forall x, In (Some x) l -> P x) -> Forall P (present l).
  Proof.
    induction l as [|[x|] l IH]; intros H; cbn; [constructor| |].
    - constructor; [apply H; left; reflexivity|apply IH; intros y Hy; apply H; right; exact Hy].
    - apply IH. intros y Hy; apply H; right; exact Hy.
  Qed.
  Lemma gains_nz h : Forall nz (present (gains h)).
  Proof.
    apply present_Forall. intros x Hx. unfold gains, each_prefix in Hx. apply in_map_iff in Hx.
    destruct Hx as (p & E & _). eapply gain_nz; exact E.
  Qed.
  Lemma losses_nz h : Forall nz (present (losses h)).
  Proof.
    apply present_Forall. intros x Hx. unfold losses, each_prefix in Hx. apply in_map_iff in Hx.
    destruct Hx as (p & E & _). eapply loss_nz; exact E.
  Qed.

  Lemma rsi_out_range len h v : (2 <= len)%nat -> (Z.of_nat len <= 2 ^ 53)%Z ->
    rsi_out len h = Some v ->
    fisnan v = true \/ (fleb (z64 0) v = true /\ fleb v (z64 100) = true).
  Proof.
    intros L B. unfold rsi_out, rsi_val.
    destruct (ema_out (rma_alpha_of len) len (gains h)) as [u|] eqn:EU; [|discriminate].
    destruct (ema_out (rma_alpha_of len) len (losses h)) as [w|] eqn:EW; [|discriminate].
    intros E; injection E as <-.
    assert (Pu : pz u) by (eapply rma_pz; [exact L|exact B|apply gains_nz|exact EU]).
    assert (Pw : pz w) by (eapply rma_pz; [exact L|exact B|apply losses_nz|exact EW]).
    pose proof (div_pz _ _ Pu Pw) as Pr.
    destruct (is_nan (fadd (z64 1) (fdiv u w))) eqn:N.
    - left. apply nan_prop_div_sub. exact N.
    - right. apply within_le; [reflexivity|apply (fin_fZ 100); lia|]. apply hundred_ratio; assumption.
  Qed.

  (** ** Percentages of a count *)
  Lemma percent_within k len : (k <= len)%nat -> (1 <= len)%nat -> (Z.of_nat len <= 2 ^ 53)%Z ->
    within (z64 0) (z64 100) (fmul (fdiv (n64 k) (n64 len)) (z64 100) : f64).
  Proof.
    intros K L B. destruct (fin_fZ 100 ltac:(lia)) as [F100 E100]. destruct (fin_fZ 1 ltac:(lia)) as [F1 E1].
    destruct (fin_fZ (Z.of_nat k) ltac:(lia)) as [Fk Ek]. destruct (fin_fZ (Z.of_nat len) ltac:(lia)) as [Fl El].
    change (z64 (Z.of_nat k)) with (n64 k) in *. change (z64 (Z.of_nat len)) with (n64 len) in *.
    assert (P : 1 <= B2R (n64 len)) by (rewrite El; apply IZR_le; lia).
    assert (Q : 0 <= B2R (n64 k) <= B2R (n64 len)) by (rewrite Ek, El; split; apply IZR_le; lia).
    assert (W : within (z64 0) (z64 1) (fdiv (n64 k) (n64 len))).
    { apply div_within; [exact Fk|exact Fl|lra|]. rewrite E1. replace (B2R (z64 0)) with 0 by reflexivity.
      split; [apply Rmult_le_pos; [lra|left; apply Rinv_0_lt_compat; lra]|].
      apply Rmult_le_reg_r with (B2R (n64 len)); [lra|]. unfold Rdiv. rewrite Rmult_assoc, Rinv_l by lra. lra. }
    destruct W as [Fw [A1 A2]]. apply mult_within; [exact Fw|exact F100|]. rewrite E100, E1 in *.
    replace (B2R (z64 0)) with 0 in * by reflexivity. nra.
  Qed.
  Lemma percent_range k len : (k <= len)%nat -> (1 <= len)%nat -> (Z.of_nat len <= 2 ^ 53)%Z ->
    fleb (z64 0) (fmul (fdiv (n64 k) (n64 len)) (z64 100) : f64) = true /\
    fleb (fmul (fdiv (n64 k) (n64 len)) (z64 100) : f64) (z64 100) = true.
  Proof.
    intros. apply within_le; [reflexivity|apply (fin_fZ 100); lia|]. apply percent_within; assumption.
  Qed.
End Ieee.
