(** * MTesting: pace/src/testing/comparison.rs, testing/array_snapshot.rs and
      the value conversions of pace/src/polars/series.rs. *)
From Verif Require Export MStats.

Section Testing.
  Context {F : Type} {NF : Num F}.
  Local Open Scope num_scope.

  (** [compare_with_precision], testing/comparison.rs:7-9. *)
  Definition compare_with_precision (x target precision : F) : bool :=
    fabs (x - target) <? precision.
  (** [compare], testing/comparison.rs:11-13. *)
  Definition compare (x target : F) : bool :=
    compare_with_precision x target (lit 1 100000).

  (** [ArraySnapshot::assert_iter], testing/array_snapshot.rs:43-78, without
      the printing.  [Ok tt]: returns normally; [Panic]: assertion failure. *)
  Fixpoint assert_loop {T} (debug : bool) (cmp : T -> T -> bool) (actual expected : list T)
      : res unit :=
    match actual, expected with
    | a :: ta, e :: te =>
        if negb (cmp a e) then (if negb debug then Panic else Ok tt)
        else assert_loop debug cmp ta te
    | _, _ => Ok tt
    end.
  (** ArraySnapshot::assert_iter, testing/array_snapshot.rs:43-78. *)
  Definition assert_iter {T} (debug : bool) (cmp : T -> T -> bool) (actual expected : list T)
      : res unit :=
    _ <- assertb (length actual =? length expected)%nat ;;
    assert_loop debug cmp actual expected.

  (** the comparison of two options in testing/array_snapshot.rs:82-126. *)
  Definition cmp_opt {T} (eq : T -> T -> bool) (a e : option T) : bool :=
    match a, e with
    | Some a, Some e => eq a e
    | None, None => true
    | _, _ => false
    end.
  (** [ArraySnapshot<Option<i32>>], :81-89 (and [Option<bool>] :101-109). *)
  Definition cmp_opt_i32 : option Z -> option Z -> bool := cmp_opt Z.eqb.
  (** [ArraySnapshot<Option<bool>>], testing/array_snapshot.rs:101-109. *)
  Definition cmp_opt_bool : option bool -> option bool -> bool := cmp_opt Bool.eqb.
  (** [ArraySnapshot<Option<f64>>], :91-99. *)
  Definition cmp_opt_f64 : option F -> option F -> bool := cmp_opt compare.
  (** [ArraySnapshot<(Option<f64>, Option<f64>, bool)>], :111-127. *)
  Definition cmp_opt2_bool (a e : option F * option F * bool) : bool :=
    let '(a0, a1, a2) := a in let '(e0, e1, e2) := e in
    cmp_opt_f64 a0 e0 && cmp_opt_f64 a1 e1 && Bool.eqb a2 e2.
  (** [ArraySnapshot<Option<(f64, f64)>>], :129-139. *)
  Definition cmp_pair_f64 : option (F * F) -> option (F * F) -> bool :=
    cmp_opt (fun a e => compare (fst a) (fst e) && compare (snd a) (snd e)).
  (** [ArraySnapshot<Option<(Option<f64>, Option<f64>)>>], :141-153: the match
      is on [actual.0], [expected.0] only. *)
  Definition cmp_pair_opt : option (option F * option F) -> option (option F * option F) -> bool :=
    cmp_opt (fun a e => cmp_opt_f64 (fst a) (fst e)).
  (** [ArraySnapshot<Option<(_, _, _)>>], :155-180. *)
  Definition cmp_triple_opt
    : option (option F * option F * option F) -> option (option F * option F * option F) -> bool :=
    cmp_opt (fun a e =>
      let '(a0, a1, a2) := a in let '(e0, e1, e2) := e in
      cmp_opt_f64 a0 e0 && cmp_opt_f64 a1 e1 && cmp_opt_f64 a2 e2).
  (** [ArraySnapshot<Option<(_, _, _, _)>>], :182-215. *)
  Definition cmp_quad_opt
    : option (option F * option F * option F * option F) ->
      option (option F * option F * option F * option F) -> bool :=
    cmp_opt (fun a e =>
      let '(a0, a1, a2, a3) := a in let '(e0, e1, e2, e3) := e in
      cmp_opt_f64 a0 e0 && cmp_opt_f64 a1 e1 && cmp_opt_f64 a2 e2 && cmp_opt_f64 a3 e3).

  (** [Series::to_f64], polars/series.rs:22-37, after the polars cast: one
      cell of the column. *)
  Definition cell_to_f64 (v : option F) : option F :=
    match v with
    | None => None
    | Some x => if fisnan x then None else Some x
    end.
  (** SeriesCastUtils::to_f64, polars/series.rs:22-37. *)
  Definition series_to_f64 (col : list (option F)) : list (option F) := map cell_to_f64 col.

  (** [merge_two_columns] ... , polars/dataframe.rs:36-88, on the cast columns. *)
  Definition merge_two_columns (a b : list (option F)) : list (option (option F * option F)) :=
    map Some (combine (series_to_f64 a) (series_to_f64 b)).
  (** merge_three_columns, polars/dataframe.rs:51-67. *)
  Definition merge_three_columns (a b d : list (option F))
      : list (option (option F * option F * option F)) :=
    map Some (combine (combine (series_to_f64 a) (series_to_f64 b)) (series_to_f64 d)).
  (** merge_four_columns, polars/dataframe.rs:69-88. *)
  Definition merge_four_columns (a b d e : list (option F))
      : list (option (option F * option F * option F * option F)) :=
    map Some (combine (combine (combine (series_to_f64 a) (series_to_f64 b)) (series_to_f64 d))
                      (series_to_f64 e)).
End Testing.
