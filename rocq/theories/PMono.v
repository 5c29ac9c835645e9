(** * PMono: IEEE operations are monotone, overflow and NaN included. *)
From Flocq Require Import Core IEEE754.BinarySingleNaN.
From Verif Require Export IEEE PRound.
From Coq Require Import Lra Psatz.
Local Open Scope R_scope.

Section Mono.
  Notation fexp64 := (SpecFloat.fexp 53 1024).
  Notation rnd r := (round radix2 fexp64 (round_mode mode_NE) r).
  Notation top := (bpow radix2 1024).

  (** [x] is not greater than [y] (they may be NaN): the comparison [y < x] is false. *)
  Definition not_above (x y : f64) : Prop := Bltb y x = false.

  Lemma not_above_cases (x y : f64) : not_above x y <->
    is_nan x = true \/ is_nan y = true \/ x = B754_infinity true \/ y = B754_infinity false \/
    (is_finite x = true /\ is_finite y = true /\ B2R x <= B2R y).
  Proof.
    unfold not_above. rewrite to_xr_lt.
    destruct (finite_cases x) as [Hx|[->|[->| ->]]], (finite_cases y) as [Hy|[->|[->| ->]]];
      try (rewrite (to_xr_finite x) by assumption); try (rewrite (to_xr_finite y) by assumption); cbn.
    - split.
      + intros H. do 4 right. split; [exact Hx|]. split; [exact Hy|]. destruct (Rltb_spec (B2R y) (B2R x)); [discriminate|lra].
      + intros [H|[H|[H|[H|(_ & _ & H)]]]]; try (destruct x; discriminate); try (destruct y; discriminate).
        destruct (Rltb_spec (B2R y) (B2R x)); [lra|reflexivity].
    - split; auto 6.
    - split; [discriminate|]. intros [H|[H|[H|[H|(_ & H & _)]]]]; try discriminate; destruct x; discriminate.
    - split; auto.
    - split; [discriminate|]. intros [H|[H|[H|[H|(H & _)]]]]; try discriminate; destruct y; discriminate.
    - split; auto 6.
    - split; [discriminate|]. intros [H|[H|[H|[H|(H & _)]]]]; discriminate.
    - split; auto.
    - split; auto 6.
    - split; auto 6.
    - split; auto 6.
    - split; auto.
    - split; auto.
    - split; auto.
    - split; auto.
    - split; auto.
  Qed.
  Lemma not_above_refl x : not_above x x.
  Proof. apply not_above_cases. destruct (finite_cases x) as [H|[->|[->| ->]]]; auto 6. do 4 right. split; [exact H|]. split; [exact H|lra]. Qed.

  Lemma rnd_le r r' : r <= r' -> rnd r <= rnd r'.
  Proof. intros H. apply round_le; [apply (fexp_correct 53 1024 eq_refl)|apply valid_rnd_round_mode|exact H]. Qed.
  (** [z] is the rounded result of a real [r]. *)
  Definition rounded (z : f64) (r : R) : Prop :=
    (is_finite z = true /\ B2R z = rnd r /\ Rabs (rnd r) < top) \/
    (z = B754_infinity false /\ top <= rnd r) \/ (z = B754_infinity true /\ rnd r <= - top).
  Lemma rounded_mono z z' r r' : rounded z r -> rounded z' r' -> r <= r' -> not_above z z'.
  Proof.
    intros A B L. assert (M : rnd r <= rnd r') by (apply rnd_le, L). apply not_above_cases.
    assert (T : 0 < top) by apply bpow_gt_0.
    destruct A as [(Fz & Ez & Bz)|[[-> Hz]|[-> Hz]]]; [| |auto 6].
    - destruct B as [(Fw & Ew & Bw)|[[-> Hw]|[-> Hw]]]; [|auto 6|].
      + do 4 right. rewrite Ez, Ew. auto.
      + exfalso. apply Rabs_def2 in Bz. lra.
    - destruct B as [(Fw & Ew & Bw)|[[-> Hw]|[-> Hw]]]; [|auto 6|]; exfalso; [apply Rabs_def2 in Bw|]; lra.
  Qed.
  Lemma sf_inf' (z : f64) s : B2SF z = SpecFloat.S754_infinity s -> z = B754_infinity s.
  Proof. destruct z; cbn; intros E; try discriminate. injection E as ->; reflexivity. Qed.
  Lemma sign_false (x : f64) : is_finite x = true -> Bsign x = false -> 0 <= B2R x.
  Proof. destruct x as [s|s| |s m e Hb]; cbn; intros F S; try discriminate; [lra|]. subst s. apply F2R_ge_0. cbn. lia. Qed.
  Lemma sign_true (x : f64) : is_finite x = true -> Bsign x = true -> B2R x <= 0.
  Proof. destruct x as [s|s| |s m e Hb]; cbn; intros F S; try discriminate; [lra|]. subst s. apply F2R_le_0. cbn. lia. Qed.
  Lemma rnd_0_ge r : 0 <= r -> 0 <= rnd r.
  Proof. intros H. rewrite <- (round_0 radix2 fexp64 (round_mode mode_NE)). apply rnd_le, H. Qed.
  Lemma rnd_0_le r : r <= 0 -> rnd r <= 0.
  Proof. intros H. rewrite <- (round_0 radix2 fexp64 (round_mode mode_NE)). apply rnd_le, H. Qed.
  Lemma over_sign (z : f64) s r : Rlt_bool (Rabs (rnd r)) top = false -> B2SF z = SpecFloat.S754_infinity s ->
    (s = false -> 0 <= r) -> (s = true -> r <= 0) -> rounded z r.
  Proof.
    intros O E P N. apply sf_inf' in E. subst z. right. destruct (Rlt_bool_spec (Rabs (rnd r)) top) as [|G]; [discriminate|].
    destruct s; [right|left]; (split; [reflexivity|]).
    - pose proof (rnd_0_le r (N eq_refl)). rewrite Rabs_left1 in G by assumption. lra.
    - pose proof (rnd_0_ge r (P eq_refl)). rewrite Rabs_pos_eq in G by assumption. lra.
  Qed.
  Lemma plus_rounded (x y : f64) : is_finite x = true -> is_finite y = true -> rounded (Bplus mode_NE x y) (B2R x + B2R y).
  Proof.
    intros Fx Fy. pose proof (Bplus_correct 53 1024 _ _ mode_NE x y Fx Fy) as C.
    destruct (Rlt_bool _ _) eqn:O.
    - destruct C as (E & Fz & _). left. split; [exact Fz|]. split; [exact E|]. destruct (Rlt_bool_spec (Rabs (rnd (B2R x + B2R y))) top); [assumption|discriminate].
    - destruct C as (E & S). apply (over_sign _ (Bsign x)); [exact O|exact E| |]; intros Q.
      + pose proof (sign_false x Fx Q). rewrite Q in S. pose proof (sign_false y Fy (eq_sym S)). lra.
      + pose proof (sign_true x Fx Q). rewrite Q in S. pose proof (sign_true y Fy (eq_sym S)). lra.
  Qed.
  Lemma mult_rounded (x y : f64) : is_finite x = true -> is_finite y = true -> rounded (Bmult mode_NE x y) (B2R x * B2R y).
  Proof.
    intros Fx Fy. pose proof (Bmult_correct 53 1024 _ _ mode_NE x y) as C.
    destruct (Rlt_bool _ _) eqn:O.
    - destruct C as (E & Fz & _). left. split; [rewrite Fz, Fx, Fy; reflexivity|]. split; [exact E|]. destruct (Rlt_bool_spec (Rabs (rnd (B2R x * B2R y))) top); [assumption|discriminate].
    - apply (over_sign _ (xorb (Bsign x) (Bsign y))); [exact O|exact C| |]; intros Q;
        destruct (Bsign x) eqn:Sx, (Bsign y) eqn:Sy; try discriminate Q;
        first [pose proof (sign_false x Fx Sx)|pose proof (sign_true x Fx Sx)]; first [pose proof (sign_false y Fy Sy)|pose proof (sign_true y Fy Sy)]; nra.
  Qed.
  Lemma div_rounded (x y : f64) : is_finite x = true -> is_finite y = true -> 0 < B2R y -> rounded (Bdiv mode_NE x y) (B2R x / B2R y).
  Proof.
    intros Fx Fy P. assert (N : B2R y <> 0) by lra. pose proof (Bdiv_correct 53 1024 _ _ mode_NE x y N) as C.
    assert (Sy : Bsign y = false) by (destruct (Bsign y) eqn:S; [pose proof (sign_true y Fy S); lra|reflexivity]).
    assert (I0 : 0 < / B2R y) by (apply Rinv_0_lt_compat, P).
    destruct (Rlt_bool _ _) eqn:O.
    - destruct C as (E & Fz & _). left. split; [rewrite Fz, Fx; reflexivity|]. split; [exact E|]. destruct (Rlt_bool_spec (Rabs (rnd (B2R x / B2R y))) top); [assumption|discriminate].
    - apply (over_sign _ (xorb (Bsign x) (Bsign y))); [exact O|exact C| |]; intros Q; rewrite Sy in Q; destruct (Bsign x) eqn:Sx; try discriminate Q; unfold Rdiv.
      + pose proof (sign_false x Fx Sx). nra.
      + pose proof (sign_true x Fx Sx). nra.
  Qed.

  (** ** Monotonicity *)
  Ltac fin_of x := let H := fresh in destruct (finite_cases x) as [H|[H|[H|H]]]; [|subst x..].
  Lemma nan_plus_l (x y : f64) : is_nan x = true -> is_nan (Bplus mode_NE x y) = true.
  Proof. destruct x; try discriminate. destruct y; reflexivity. Qed.
  Lemma nan_plus_r (x y : f64) : is_nan y = true -> is_nan (Bplus mode_NE x y) = true.
  Proof. destruct y; try discriminate. destruct x as [|[]| |]; reflexivity. Qed.
  Lemma inf_plus_l s (y : f64) : is_nan (Bplus mode_NE (B754_infinity s) y) = true \/ Bplus mode_NE (B754_infinity s) y = B754_infinity s.
  Proof. destruct y as [|t| |]; auto. destruct s, t; auto. Qed.
  Lemma inf_plus_r s (x : f64) : is_nan (Bplus mode_NE x (B754_infinity s)) = true \/ Bplus mode_NE x (B754_infinity s) = B754_infinity s.
  Proof. destruct x as [|t| |]; auto. destruct s, t; auto. Qed.
  Theorem plus_mono (x y x' y' : f64) : not_above x x' -> not_above y y' -> not_above (Bplus mode_NE x y) (Bplus mode_NE x' y').
  Proof.
    intros A B. apply not_above_cases in A. apply not_above_cases in B.
    destruct A as [A|[A|[->|[->|(Fx & Fx' & Lx)]]]].
    - apply not_above_cases. left. apply nan_plus_l, A.
    - apply not_above_cases. right; left. apply nan_plus_l, A.
    - apply not_above_cases. destruct (inf_plus_l true y) as [E|E]; auto.
    - apply not_above_cases. destruct (inf_plus_l false y') as [E|E]; auto 6.
    - destruct B as [B|[B|[->|[->|(Fy & Fy' & Ly)]]]].
      + apply not_above_cases. left. apply nan_plus_r, B.
      + apply not_above_cases. right; left. apply nan_plus_r, B.
      + apply not_above_cases. destruct (inf_plus_r true x) as [E|E]; auto.
      + apply not_above_cases. destruct (inf_plus_r false x') as [E|E]; auto 6.
      + eapply rounded_mono; [apply plus_rounded; assumption..|]. lra.
  Qed.
  (** unsigned-signed, or NaN *)
  Definition unsigned (k : f64) : Prop := is_nan k = true \/ Bsign k = false.
  Ltac cmp := first [reflexivity | assumption].
  (** multiplication by a constant that is not negative *)
  Theorem mult_mono (k x x' : f64) : unsigned k -> not_above x x' -> not_above (Bmult mode_NE k x) (Bmult mode_NE k x').
  Proof.
    intros K A. apply not_above_cases in A. destruct (is_finite k) eqn:Fk.
    - assert (Sk : Bsign k = false) by (destruct K as [K|K]; [destruct k; discriminate|exact K]).
      destruct A as [A|[A|[->|[->|(Fx & Fx' & Lx)]]]].
      + apply not_above_cases. left. destruct x; try discriminate. destruct k; reflexivity.
      + apply not_above_cases. right; left. destruct x'; try discriminate. destruct k; reflexivity.
      + apply not_above_cases. destruct k as [s|s| |s m e Hb]; try discriminate; cbn in Sk; subst s; cbn; auto.
      + apply not_above_cases. destruct k as [s|s| |s m e Hb]; try discriminate; cbn in Sk; subst s; cbn; auto 6.
      + eapply rounded_mono; [apply mult_rounded; assumption..|]. pose proof (sign_false k Fk Sk). nra.
    - destruct k as [s|s| |s m e Hb]; try discriminate.
      + destruct K as [K|K]; [discriminate|]. cbn in K. subst s. apply not_above_cases. apply not_above_cases in A. unfold not_above in A.
        destruct x as [s|s| |s m e Hb], x' as [s'|s'| |s' m' e' Hb']; cbn; auto; try destruct s; try destruct s'; cbn; auto 6; discriminate A.
      + apply not_above_cases. left. reflexivity.
  Qed.
  Lemma mult_comm (x y : f64) : Bmult mode_NE x y = Bmult mode_NE y x.
  Proof.
    destruct (is_finite x) eqn:Fx; destruct (is_finite y) eqn:Fy.
    2,3,4: destruct x as [[]|[]| |[] m e Hb], y as [[]|[]| |[] m' e' Hb']; try discriminate; reflexivity.
    apply B2SF_inj. pose proof (Bmult_correct 53 1024 _ _ mode_NE x y) as C. pose proof (Bmult_correct 53 1024 _ _ mode_NE y x) as D.
    rewrite (Rmult_comm (B2R y)) in D. destruct (Rlt_bool _ _).
    - destruct C as (E & Fz & S). destruct D as (E' & Fz' & S'). rewrite Fx, Fy in Fz, Fz'. cbn in Fz, Fz'.
      assert (N : is_nan (Bmult mode_NE x y) = false) by (destruct (Bmult mode_NE x y); try discriminate; reflexivity).
      assert (N' : is_nan (Bmult mode_NE y x) = false) by (destruct (Bmult mode_NE y x); try discriminate; reflexivity).
      f_equal. apply B2R_Bsign_inj; try assumption; [congruence|]. rewrite S, S' by assumption. apply xorb_comm.
    - rewrite C, D. rewrite xorb_comm. reflexivity.
  Qed.
  Theorem mult_mono_r (k x x' : f64) : unsigned k -> not_above x x' -> not_above (Bmult mode_NE x k) (Bmult mode_NE x' k).
  Proof. intros K A. rewrite !(mult_comm _ k). apply mult_mono; assumption. Qed.
  (** division by a constant that is not negative *)
  Theorem div_mono (k x x' : f64) : unsigned k -> not_above x x' -> not_above (Bdiv mode_NE x k) (Bdiv mode_NE x' k).
  Proof.
    intros K A. destruct k as [s|s| |s m e Hb] eqn:EK.
    - destruct K as [K|K]; [discriminate|]. cbn in K. subst s. apply not_above_cases. unfold not_above in A.
      destruct x as [s|s| |s m e Hb], x' as [s'|s'| |s' m' e' Hb']; cbn; auto; try destruct s; try destruct s'; cbn; auto 6; discriminate A.
    - destruct K as [K|K]; [discriminate|]. cbn in K. subst s. apply not_above_cases. unfold not_above in A.
      destruct x as [s|s| |s m e Hb], x' as [s'|s'| |s' m' e' Hb']; cbn; auto; try destruct s; try destruct s'; cbn; auto 6; try discriminate A;
        do 4 right; (split; [reflexivity|]); (split; [reflexivity|]); lra.
    - apply not_above_cases. left. destruct x; reflexivity.
    - rewrite <- EK in *. assert (Fk : is_finite k = true) by (rewrite EK; reflexivity).
      assert (Sk : Bsign k = false) by (destruct K as [K|K]; [rewrite EK in K; discriminate|exact K]).
      assert (Pk : 0 < B2R k) by (rewrite EK in Sk |- *; cbn in Sk; subst s; apply F2R_gt_0; cbn; lia).
      apply not_above_cases in A. destruct A as [A|[A|[->|[->|(Fx & Fx' & Lx)]]]].
      + apply not_above_cases. left. destruct x; try discriminate. destruct k; reflexivity.
      + apply not_above_cases. right; left. destruct x'; try discriminate. destruct k; reflexivity.
      + apply not_above_cases. subst k. cbn in Sk; subst s; cbn; auto.
      + apply not_above_cases. subst k. cbn in Sk; subst s; cbn; auto 6.
      + eapply rounded_mono; [apply div_rounded; assumption..|]. unfold Rdiv. apply Rmult_le_compat_r; [left; apply Rinv_0_lt_compat, Pk|exact Lx].
  Qed.
End Mono.
