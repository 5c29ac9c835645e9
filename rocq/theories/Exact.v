(** * Exact: the arithmetic instance without rounding.

    Real numbers extended with the two infinities and NaN, following the
    IEEE-754 rules for them (with a single, unsigned zero: [x / 0] has the
    sign of [x]). *)
From Coq Require Export Reals Lra.
From Verif Require Export Laws.
Local Open Scope R_scope.

Inductive xr : Type := Fin (r : R) | PInf | NInf | XNaN.

Definition xneg (a : xr) : xr :=
  match a with Fin r => Fin (- r) | PInf => NInf | NInf => PInf | XNaN => XNaN end.
Definition xabs (a : xr) : xr :=
  match a with Fin r => Fin (Rabs r) | PInf | NInf => PInf | XNaN => XNaN end.
Definition xadd (a b : xr) : xr :=
  match a, b with
  | Fin x, Fin y => Fin (x + y)
  | XNaN, _ | _, XNaN => XNaN
  | PInf, NInf | NInf, PInf => XNaN
  | PInf, _ | _, PInf => PInf
  | NInf, _ | _, NInf => NInf
  end.
Definition xsub (a b : xr) : xr := 
  match a, b with Fin x, Fin y => Fin (x - y) | _, _ => xadd a (xneg b) end.
(** sign of a number: [1], [-1] or [0]. *)
Definition rsgn (x : R) : Z :=
  if Rlt_dec 0 x then 1%Z else if Rlt_dec x 0 then (-1)%Z else 0%Z.
Definition xsgn (a : xr) : Z :=
  match a with Fin x => rsgn x | PInf => 1%Z | NInf => (-1)%Z | XNaN => 0%Z end.
Definition xinf (s : Z) : xr :=
  match s with Z0 => XNaN | Zpos _ => PInf | Zneg _ => NInf end.
Definition xmul (a b : xr) : xr :=
  match a, b with
  | Fin x, Fin y => Fin (x * y)
  | XNaN, _ | _, XNaN => XNaN
  | _, _ => xinf (xsgn a * xsgn b)
  end.
Definition xdiv (a b : xr) : xr :=
  match a, b with
  | XNaN, _ | _, XNaN => XNaN
  | Fin x, Fin y => if Req_EM_T y 0 then xinf (rsgn x) else Fin (x / y)
  | Fin _, _ => Fin 0
  | _, Fin y => if Req_EM_T y 0 then a else xinf (xsgn a * rsgn y)
  | _, _ => XNaN
  end.
Definition xsqrt (a : xr) : xr :=
  match a with
  | Fin x => if Rlt_dec x 0 then XNaN else Fin (sqrt x)
  | PInf => PInf
  | NInf | XNaN => XNaN
  end.
Definition xlog10 (a : xr) : xr :=
  match a with
  | Fin x => if Rlt_dec x 0 then XNaN else if Req_EM_T x 0 then NInf else Fin (ln x / ln 10)
  | PInf => PInf
  | NInf | XNaN => XNaN
  end.
Definition Rltb (x y : R) : bool := if Rlt_dec x y then true else false.
Definition Rleb (x y : R) : bool := if Rle_dec x y then true else false.
Definition xltb (a b : xr) : bool :=
  match a, b with
  | XNaN, _ | _, XNaN => false
  | Fin x, Fin y => Rltb x y
  | NInf, NInf => false
  | NInf, _ => true
  | _, NInf => false
  | PInf, _ => false
  | _, PInf => true
  end.
Definition xisnan (a : xr) : bool := match a with XNaN => true | _ => false end.
Definition xleb (a b : xr) : bool :=
  if xisnan a then false else if xisnan b then false else negb (xltb b a).
Definition xeqb (a b : xr) : bool := xleb a b && xleb b a.
Definition xofZ (z : Z) : xr := Fin (IZR z).

#[global] Instance Exact : Num xr := {
  fadd := xadd; fsub := xsub; fmul := xmul; fdiv := xdiv; fneg := xneg; fabs := xabs;
  fsqrt := xsqrt; flog10 := xlog10; fltb := xltb; fleb := xleb; feqb := xeqb;
  fisnan := xisnan; fofZ := xofZ }.

Lemma Rltb_spec x y : BoolSpec (x < y) (y <= x) (Rltb x y).
Proof. unfold Rltb; destruct (Rlt_dec x y); constructor; lra. Qed.
Lemma Rleb_spec x y : BoolSpec (x <= y) (y < x) (Rleb x y).
Proof. unfold Rleb; destruct (Rle_dec x y); constructor; lra. Qed.

#[global] Instance ExactOrd : OrdNum xr.
Proof.
  split; cbn.
  - intros [x| | |]; cbn; try reflexivity. destruct (Rltb_spec x x); [lra|reflexivity].
  - intros [x| | |] [y| | |] [z| | |]; cbn; try reflexivity; try discriminate.
    destruct (Rltb_spec x y), (Rltb_spec y z), (Rltb_spec x z); try reflexivity; try discriminate; lra.
  - intros [x| | |] [y| | |] [z| | |]; cbn; try discriminate; auto.
    intros _. destruct (Rltb_spec x y), (Rltb_spec x z), (Rltb_spec z y); try discriminate; auto; lra.
  - intros [x| | |] b; cbn; try discriminate; reflexivity.
  - intros [x| | |] [y| | |]; cbn; try discriminate; reflexivity.
  - intros [x| | |] b; cbn; try discriminate; reflexivity.
  - intros [x| | |] [y| | |]; cbn; try discriminate; reflexivity.
  - intros [x| | |] [y| | |]; cbn; try discriminate; reflexivity.
  - reflexivity.
  - reflexivity.
  - intros a b _ _. destruct (Rltb_spec (IZR a) (IZR b)) as [H|H].
    + symmetry; apply Z.ltb_lt, lt_IZR, H.
    + symmetry; apply Z.ltb_ge, le_IZR, H.
Qed.

(** ** Computing with finite values *)
Lemma fin_add x y : fadd (Fin x) (Fin y) = Fin (x + y). Proof. reflexivity. Qed.
Lemma fin_sub x y : fsub (Fin x) (Fin y) = Fin (x - y). Proof. reflexivity. Qed.
Lemma fin_mul x y : fmul (Fin x) (Fin y) = Fin (x * y). Proof. reflexivity. Qed.
Lemma fin_neg x : fneg (Fin x) = Fin (- x). Proof. reflexivity. Qed.
Lemma fin_abs x : fabs (Fin x) = Fin (Rabs x). Proof. reflexivity. Qed.
Lemma fin_div x y : y <> 0 -> fdiv (Fin x) (Fin y) = Fin (x / y).
Proof. intros H; cbn. destruct (Req_EM_T y 0); [contradiction|reflexivity]. Qed.
Lemma fin_div0 x : fdiv (Fin x) (Fin 0) = xinf (rsgn x).
Proof. cbn. destruct (Req_EM_T 0 0); [reflexivity|lra]. Qed.
Lemma fin_sqrt x : 0 <= x -> fsqrt (Fin x) = Fin (sqrt x).
Proof. intros H; cbn. destruct (Rlt_dec x 0); [lra|reflexivity]. Qed.
Lemma fin_Z z : (fZ z : xr) = Fin (IZR z). Proof. reflexivity. Qed.
Lemma fin_nat n : (fnat n : xr) = Fin (INR n).
Proof. unfold fnat; cbn. rewrite INR_IZR_INZ. reflexivity. Qed.
Lemma fin_lit a b : b <> 0%Z -> (lit a b : xr) = Fin (IZR a / IZR b).
Proof. intros H. unfold lit. apply fin_div. apply not_0_IZR, H. Qed.
Lemma fin_lt x y : fltb (Fin x) (Fin y) = Rltb x y. Proof. reflexivity. Qed.
Lemma fin_le x y : fleb (Fin x) (Fin y) = Rleb x y.
Proof.
  cbn. destruct (Rltb_spec y x), (Rleb_spec x y); cbn; try reflexivity; lra.
Qed.
Definition Reqb (x y : R) : bool := if Req_EM_T x y then true else false.
Lemma Reqb_spec x y : BoolSpec (x = y) (x <> y) (Reqb x y).
Proof. unfold Reqb; destruct (Req_EM_T x y); constructor; assumption. Qed.
Lemma fin_eq x y : feqb (Fin x) (Fin y) = Reqb x y.
Proof.
  cbn. unfold xeqb. cbn. destruct (Rltb_spec y x), (Rltb_spec x y), (Reqb_spec x y); cbn; try reflexivity; lra.
Qed.
Lemma fin_max x y : fmax (Fin x) (Fin y) = Fin (Rmax x y).
Proof.
  unfold fmax. cbn. unfold Rmax. destruct (Rltb_spec x y), (Rle_dec x y); try reflexivity; f_equal; lra.
Qed.
Lemma fin_min x y : fmin (Fin x) (Fin y) = Fin (Rmin x y).
Proof.
  unfold fmin. cbn. unfold Rmin. destruct (Rltb_spec y x), (Rle_dec x y); try reflexivity; f_equal; lra.
Qed.
Lemma fin_sq x : fsq (Fin x) = Fin (x * x). Proof. reflexivity. Qed.

Fixpoint Rsum (l : list R) : R := match l with [] => 0 | x :: t => x + Rsum t end.
Lemma Rsum_app l m : Rsum (l ++ m) = Rsum l + Rsum m.
Proof. induction l; cbn; [|rewrite IHl]; lra. Qed.
Lemma fin_sum l : fsum (map Fin l) = Fin (Rsum l).
Proof.
  unfold fsum. rewrite fin_Z. 
  assert (G : forall a, fold_left (fun acc x : xr => fadd acc x) (map Fin l) (Fin a) = Fin (a + Rsum l)).
  { induction l as [|x l IH]; intros a; cbn [map fold_left Rsum].
    - f_equal; lra.
    - rewrite fin_add, IH. f_equal; lra. }
  rewrite G. f_equal; lra.
Qed.
