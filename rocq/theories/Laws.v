(** * Laws: the order laws the two number instances share.

    Proved for [Exact.v] and for [IEEE.v]; a theorem assuming [OrdNum] holds
    of both. *)
From Verif Require Export Num.

Section Laws.
  Local Open Scope num_scope.

  Class OrdNum (F : Type) {NF : Num F} : Prop := {
    lt_irrefl : forall a : F, (a <? a) = false;
    lt_trans : forall a b c : F, (a <? b) = true -> (b <? c) = true -> (a <? c) = true;
    lt_cotrans : forall a b c : F, fisnan c = false ->
      (a <? b) = true -> (a <? c) = true \/ (c <? b) = true;
    lt_nan_l : forall a b : F, fisnan a = true -> (a <? b) = false;
    lt_nan_r : forall a b : F, fisnan b = true -> (a <? b) = false;
    le_nan_l : forall a b : F, fisnan a = true -> (a <=? b) = false;
    le_nan_r : forall a b : F, fisnan b = true -> (a <=? b) = false;
    le_lt : forall a b : F, fisnan a = false -> fisnan b = false -> (a <=? b) = negb (b <? a);
    eq_le : forall a b : F, (a ==? b) = (a <=? b) && (b <=? a);
    nan_fZ : forall z, fisnan (fZ z : F) = false;
    lt_fZ : forall a b, (Z.abs a <= 2 ^ 53)%Z -> (Z.abs b <= 2 ^ 53)%Z ->
      ((fZ a : F) <? fZ b) = (a <? b)%Z
  }.
End Laws.

Section Order.
  Context {F : Type} {NF : Num F} {OF : OrdNum F}.
  Local Open Scope num_scope.
  Implicit Types a b c : F.

  Lemma lt_nonnan a b : (a <? b) = true -> fisnan a = false /\ fisnan b = false.
  Proof.
    intros H; split.
    - destruct (fisnan a) eqn:E; [|reflexivity]. rewrite lt_nan_l in H by exact E; discriminate.
    - destruct (fisnan b) eqn:E; [|reflexivity]. rewrite lt_nan_r in H by exact E; discriminate.
  Qed.
  Lemma le_nonnan a b : (a <=? b) = true -> fisnan a = false /\ fisnan b = false.
  Proof.
    intros H; split.
    - destruct (fisnan a) eqn:E; [|reflexivity]. rewrite le_nan_l in H by exact E; discriminate.
    - destruct (fisnan b) eqn:E; [|reflexivity]. rewrite le_nan_r in H by exact E; discriminate.
  Qed.
  Lemma le_not_lt a b : (a <=? b) = true -> (b <? a) = false.
  Proof.
    intros H. destruct (le_nonnan _ _ H) as [Ha Hb]. rewrite le_lt in H by assumption.
    apply negb_true_iff in H; exact H.
  Qed.
  Lemma not_lt_le a b : fisnan a = false -> fisnan b = false -> (b <? a) = false -> (a <=? b) = true.
  Proof. intros Ha Hb H. rewrite le_lt, H by assumption. reflexivity. Qed.
  Lemma lt_le a b : (a <? b) = true -> (a <=? b) = true.
  Proof.
    intros H. destruct (lt_nonnan _ _ H). apply not_lt_le; auto.
    destruct (b <? a) eqn:E; [|reflexivity].
    rewrite <- (lt_irrefl a). symmetry. eapply lt_trans; eassumption.
  Qed.
  Lemma le_refl a : fisnan a = false -> (a <=? a) = true.
  Proof. intros H. apply not_lt_le; auto. apply lt_irrefl. Qed.
  Lemma le_trans a b c : (a <=? b) = true -> (b <=? c) = true -> (a <=? c) = true.
  Proof.
    intros H1 H2. destruct (le_nonnan _ _ H1), (le_nonnan _ _ H2).
    apply not_lt_le; auto. destruct (c <? a) eqn:E; [|reflexivity].
    apply lt_cotrans with (c := b) in E; [|assumption].
    apply le_not_lt in H1, H2. destruct E; congruence.
  Qed.
  Lemma le_lt_trans a b c : (a <=? b) = true -> (b <? c) = true -> (a <? c) = true.
  Proof.
    intros H1 H2. destruct (le_nonnan _ _ H1).
    apply lt_cotrans with (c := a) in H2; [|assumption].
    apply le_not_lt in H1. destruct H2; [congruence|assumption].
  Qed.
  Lemma lt_le_trans a b c : (a <? b) = true -> (b <=? c) = true -> (a <? c) = true.
  Proof.
    intros H1 H2. destruct (le_nonnan _ _ H2).
    apply lt_cotrans with (c := c) in H1; [|assumption].
    apply le_not_lt in H2. destruct H1; [assumption|congruence].
  Qed.
  Lemma lt_asym a b : (a <? b) = true -> (b <? a) = false.
  Proof. intros H; apply le_not_lt, lt_le, H. Qed.
  Lemma le_total a b : fisnan a = false -> fisnan b = false -> (a <=? b) = true \/ (b <=? a) = true.
  Proof.
    intros Ha Hb. destruct (a <? b) eqn:E; [left; apply lt_le; exact E|right; apply not_lt_le; auto].
  Qed.

  (** [f64::max] / [f64::min]. *)
  Lemma fmax_nonnan a b : fisnan a = false \/ fisnan b = false -> fisnan (fmax a b) = false.
  Proof.
    unfold fmax. intros H. destruct (fisnan a) eqn:Ea; [destruct H; congruence|].
    destruct (fisnan b) eqn:Eb; [exact Ea|]. destruct (a <? b); assumption.
  Qed.
  Lemma fmin_nonnan a b : fisnan a = false \/ fisnan b = false -> fisnan (fmin a b) = false.
  Proof.
    unfold fmin. intros H. destruct (fisnan a) eqn:Ea; [destruct H; congruence|].
    destruct (fisnan b) eqn:Eb; [exact Ea|]. destruct (b <? a); assumption.
  Qed.
  Lemma fmax_ge_l a b : fisnan a = false -> (a <=? fmax a b) = true.
  Proof.
    unfold fmax. intros Ha; rewrite Ha. destruct (fisnan b); [apply le_refl; exact Ha|].
    destruct (a <? b) eqn:E; [apply lt_le; exact E|apply le_refl; exact Ha].
  Qed.
  Lemma fmax_ge_r a b : fisnan b = false -> (b <=? fmax a b) = true.
  Proof.
    unfold fmax. intros Hb. destruct (fisnan a) eqn:Ha; [apply le_refl; exact Hb|].
    rewrite Hb. destruct (a <? b) eqn:E; [apply le_refl; exact Hb|apply not_lt_le; auto].
  Qed.
  Lemma fmin_le_l a b : fisnan a = false -> (fmin a b <=? a) = true.
  Proof.
    unfold fmin. intros Ha; rewrite Ha. destruct (fisnan b); [apply le_refl; exact Ha|].
    destruct (b <? a) eqn:E; [apply lt_le; exact E|apply le_refl; exact Ha].
  Qed.
  Lemma fmin_le_r a b : fisnan b = false -> (fmin a b <=? b) = true.
  Proof.
    unfold fmin. intros Hb. destruct (fisnan a) eqn:Ha; [apply le_refl; exact Hb|].
    rewrite Hb. destruct (b <? a) eqn:E; [apply le_refl; exact Hb|apply not_lt_le; auto].
  Qed.
  Lemma fmax_cases a b : fmax a b = a \/ fmax a b = b.
  Proof. unfold fmax. destruct (fisnan a), (fisnan b), (a <? b); auto. Qed.
  Lemma fmin_cases a b : fmin a b = a \/ fmin a b = b.
  Proof. unfold fmin. destruct (fisnan a), (fisnan b), (b <? a); auto. Qed.
  Lemma fmax_lub a b c : (a <=? c) = true -> (b <=? c) = true -> (fmax a b <=? c) = true.
  Proof. destruct (fmax_cases a b) as [-> | ->]; auto. Qed.
  Lemma fmin_glb a b c : (c <=? a) = true -> (c <=? b) = true -> (c <=? fmin a b) = true.
  Proof. destruct (fmin_cases a b) as [-> | ->]; auto. Qed.

  Lemma le_fZ (a b : Z) : (Z.abs a <= 2 ^ 53)%Z -> (Z.abs b <= 2 ^ 53)%Z ->
    ((fZ a : F) <=? fZ b) = (a <=? b)%Z.
  Proof.
    intros Ha Hb. rewrite le_lt, lt_fZ by (assumption || apply nan_fZ).
    rewrite Z.leb_antisym. reflexivity.
  Qed.
  Lemma eq_fZ (a b : Z) : (Z.abs a <= 2 ^ 53)%Z -> (Z.abs b <= 2 ^ 53)%Z ->
    ((fZ a : F) ==? fZ b) = (a =? b)%Z.
  Proof.
    intros Ha Hb. rewrite eq_le, !le_fZ by assumption.
    destruct (Z.leb_spec a b), (Z.leb_spec b a), (Z.eqb_spec a b); cbn; try reflexivity; lia.
  Qed.
End Order.
