(** * SpecReal: textbook formulas over the real numbers. *)
From Verif Require Export Spec Exact.
Local Open Scope R_scope.

(** Real data with gaps, as seen by the exact-arithmetic instance. *)
Definition lift (h : list (option R)) : list (option xr) := map (option_map Fin) h.
(** Gap-free real data. *)
Definition full (vs : list R) : list (option xr) := map (fun v => Some (Fin v)) vs.

Definition Rmean (l : list R) : R := Rsum l / INR (length l).

(** Linearly weighted: the oldest value has weight [w], the next [w + 1], ... *)
Fixpoint Rweighted (w : nat) (l : list R) : R :=
  match l with [] => 0 | x :: t => INR w * x + Rweighted (S w) t end.
(** 1 + 2 + ... + n. *)
Definition triangular (n : nat) : R := INR n * (INR n + 1) / 2.
Definition Rwmean (l : list R) : R := Rweighted 1 l / triangular (length l).

(** Symmetric weights 1 2 2 1 over four values, oldest first. *)
Definition Rswmean (l : list R) : R :=
  match l with [a; b; c; d] => (a + 2 * b + 2 * c + d) / 6 | _ => 0 end.

(** Mean absolute deviation from the mean. *)
Definition Rmad (l : list R) : R := Rmean (map (fun v => Rabs (v - Rmean l)) l).
(** Sum of squared deviations from the mean. *)
Definition Rssd (l : list R) : R := Rsum (map (fun v => (v - Rmean l) ^ 2) l).

(** Least and greatest element. *)
Definition in_range (lo hi x : R) : Prop := lo <= x <= hi.
Definition all_in (lo hi : R) (l : list R) : Prop := Forall (in_range lo hi) l.
Definition is_max (m : R) (l : list R) : Prop := In m l /\ Forall (fun x => x <= m) l.
Definition is_min (m : R) (l : list R) : Prop := In m l /\ Forall (fun x => m <= x) l.
Fixpoint Rmaxl (x : R) (l : list R) : R := match l with [] => x | y :: t => Rmaxl (Rmax x y) t end.
Fixpoint Rminl (x : R) (l : list R) : R := match l with [] => x | y :: t => Rminl (Rmin x y) t end.
Definition Rmaximum (l : list R) : option R := match l with [] => None | x :: t => Some (Rmaxl x t) end.
Definition Rminimum (l : list R) : option R := match l with [] => None | x :: t => Some (Rminl x t) end.

(** Exponential smoothing of gap-free data: the mean of the first [len]
    values, then [alpha * x + (1 - alpha) * previous]. *)
Definition Rsmooth (alpha : R) (len : nat) (vs : list R) : option R :=
  if (length vs <? len)%nat then None
  else Some (fold_left (fun e v => alpha * v + (1 - alpha) * e) (skipn len vs) (Rmean (firstn len vs))).

(** Facts relating the specification to itself (sanity checks of the spec). *)
Lemma Rmaxl_ge x l : x <= Rmaxl x l /\ Forall (fun y => y <= Rmaxl x l) l.
Proof.
  revert x; induction l as [|y l IH]; intros x; cbn; [split; [lra|constructor]|].
  destruct (IH (Rmax x y)) as [A B]. pose proof (Rmax_l x y). pose proof (Rmax_r x y).
  split; [lra|]. constructor; [lra|exact B].
Qed.
Lemma Rminl_le x l : Rminl x l <= x /\ Forall (fun y => Rminl x l <= y) l.
Proof.
  revert x; induction l as [|y l IH]; intros x; cbn; [split; [lra|constructor]|].
  destruct (IH (Rmin x y)) as [A B]. pose proof (Rmin_l x y). pose proof (Rmin_r x y).
  split; [lra|]. constructor; [lra|exact B].
Qed.
Lemma Rmaxl_In x l : Rmaxl x l = x \/ In (Rmaxl x l) l.
Proof.
  revert x; induction l as [|y l IH]; intros x; cbn; [auto|].
  destruct (IH (Rmax x y)) as [->|H]; [|auto]. unfold Rmax; destruct (Rle_dec x y); auto.
Qed.
Lemma Rminl_In x l : Rminl x l = x \/ In (Rminl x l) l.
Proof.
  revert x; induction l as [|y l IH]; intros x; cbn; [auto|].
  destruct (IH (Rmin x y)) as [->|H]; [|auto]. unfold Rmin; destruct (Rle_dec x y); auto.
Qed.
Lemma Rmaximum_spec l m : Rmaximum l = Some m <-> is_max m l.
Proof.
  assert (A : forall l m, Rmaximum l = Some m -> is_max m l).
  { intros [|x t] n; cbn; intros E; [discriminate|]. injection E as <-.
    destruct (Rmaxl_ge x t) as [A B]. split; [destruct (Rmaxl_In x t) as [->|H]; cbn; auto|].
    constructor; assumption. }
  split; [apply A|]. intros [I F]. destruct (Rmaximum l) as [n|] eqn:E.
  - apply A in E. destruct E as [I' F']. rewrite Forall_forall in *. f_equal. specialize (F n I'). specialize (F' m I). lra.
  - destruct l; [destruct I|discriminate].
Qed.
Lemma Rminimum_spec l m : Rminimum l = Some m <-> is_min m l.
Proof.
  assert (A : forall l m, Rminimum l = Some m -> is_min m l).
  { intros [|x t] n; cbn; intros E; [discriminate|]. injection E as <-.
    destruct (Rminl_le x t) as [A B]. split; [destruct (Rminl_In x t) as [->|H]; cbn; auto|].
    constructor; assumption. }
  split; [apply A|]. intros [I F]. destruct (Rminimum l) as [n|] eqn:E.
  - apply A in E. destruct E as [I' F']. rewrite Forall_forall in *. f_equal. specialize (F n I'). specialize (F' m I). lra.
  - destruct l; [destruct I|discriminate].
Qed.

(** Consecutive differences; gains and losses. *)
Fixpoint diffs (l : list R) : list R :=
  match l with
  | a :: ((b :: _) as t) => (b - a) :: diffs t
  | _ => []
  end.
Definition Rgains (vs : list R) : list R := map (fun d => Rmax d 0) (diffs vs).
Definition Rlosses (vs : list R) : list R := map (fun d => Rmax (- d) 0) (diffs vs).

(** 100 - 100 / (1 + up / down), in the form that needs no infinities:
    not a number when nothing moved, 100 when there was no loss. *)
Definition Rrsi_of (up down : R) : xr :=
  if Req_EM_T down 0 then (if Req_EM_T up 0 then XNaN else Fin 100)
  else Fin (100 - 100 / (1 + up / down)).
Definition Rrsi (len : nat) (vs : list R) : option xr :=
  match Rsmooth (1 / INR len) len (Rgains vs), Rsmooth (1 / INR len) len (Rlosses vs) with
  | Some u, Some d => Some (Rrsi_of u d)
  | _, _ => None
  end.

Lemma diffs_snoc l a b : diffs (l ++ [a; b]) = diffs (l ++ [a]) ++ [b - a].
Proof.
  induction l as [|x l IH]; [reflexivity|]. destruct l as [|y l]; [reflexivity|].
  change (diffs ((x :: y :: l) ++ [a; b])) with ((y - x) :: diffs ((y :: l) ++ [a; b])).
  rewrite IH. reflexivity.
Qed.
Lemma diffs_length l : length (diffs l) = (length l - 1)%nat.
Proof.
  induction l as [|x l IH]; [reflexivity|]. destruct l as [|y l]; [reflexivity|].
  change (length (diffs (x :: y :: l))) with (S (length (diffs (y :: l)))). rewrite IH. cbn. lia.
Qed.
