(** * Inst: concrete data for the non-vacuity examples. *)
From Verif Require Export Spec IEEE.

(** f64 arithmetic with some [log10] (the examples do not use it). *)
#[global] Instance F64 : Num f64 := IEEE (fun x => x).
#[global] Instance F64Ord : @OrdNum f64 F64 := IEEEOrd _.

Definition q (z : Z) : f64 := f64_ofZ z.
Definition qs (l : list Z) : list (option f64) := map (fun z => Some (q z)) l.

(** The context obtained by giving the bars to [InMemoryDataProvider::new] and
    the provider to [Context::new]. *)
Section Over.
  Context {F : Type} {NF : Num F}.
  Definition ctx_over (bs : list (bar F)) : res (ctx F) :=
    d <- provider_new (map b_open bs) (map b_high bs) (map b_low bs) (map b_close bs)
           (map b_volume bs) (repeat None (length bs)) ;; ctx_new d.
  Lemma ctx_over_fresh bs : bs <> [] -> exists c, ctx_over bs = Ok c /\ fresh_over c bs /\ c_first c = 0 /\
    c_last c = length bs - 1 /\ c_running c = false.
  Proof.
    intros H. unfold ctx_over, provider_new, usub. rewrite map_length.
    destruct (Nat.leb_spec 1 (length bs)); [|destruct bs; [congruence|cbn in *; lia]].
    cbn [rbind]. unfold ctx_new, usub. cbn [p_end p_start Nat.leb rbind].
    eexists; split; [reflexivity|]. split; [split; [repeat split|reflexivity]|]. repeat split.
  Qed.
End Over.

(** Bars from (open, high, low, close, volume). *)
Definition qbar (x : Z * Z * Z * Z * Z) : bar f64 :=
  let '(o, h, l, c, v) := x in mkBar (Some (q o)) (Some (q h)) (Some (q l)) (Some (q c)) (Some (q v)).
Definition bars6 : list (bar f64) := map qbar
  [(10, 12, 9, 11, 100); (11, 14, 10, 13, 120); (13, 15, 12, 12, 90);
   (12, 13, 8, 9, 200); (9, 11, 7, 10, 150); (10, 16, 10, 15, 300)]%Z.
Definition ctx6 : ctx f64 :=
  mkCtx (mkProvider (map b_open bars6) (map b_high bars6) (map b_low bars6) (map b_close bars6)
           (map b_volume bars6) (repeat None 6) 0 5) 0 5 6 0 false.
Lemma ctx6_is : ctx_over bars6 = Ok ctx6.
Proof. reflexivity. Qed.
Lemma ctx6_fresh : fresh_over ctx6 bars6.
Proof. split; [repeat split|reflexivity]. Qed.

(** A context that is only a position (components that never read bars). *)
Definition ctx_bare {F} : ctx F := mkCtx (mkProvider [] [] [] [] [] [] 0 0) 0 0 0 0 false.

(** Bars over the reals. *)
Definition rbar (x : R * R * R * R * R) : bar xr :=
  let '(o, h, l, c, v) := x in mkBar (Some (Fin o)) (Some (Fin h)) (Some (Fin l)) (Some (Fin c)) (Some (Fin v)).

(** Comparing computed f64 results as a boolean (two equal floats may carry
    different well-formedness proofs, so [=] is not decided by computation). *)
Definition same_opt (a b : option f64) : bool :=
  match a, b with Some x, Some y => feqb x y | None, None => true | _, _ => false end.
Fixpoint same_list {A} (eq : A -> A -> bool) (a b : list A) : bool :=
  match a, b with
  | [], [] => true
  | x :: a, y :: b => eq x y && same_list eq a b
  | _, _ => false
  end.
Definition gives {A} (eq : A -> A -> bool) (r : res (list A)) (want : list A) : bool :=
  match r with Ok l => same_list eq l want | Panic => false end.
