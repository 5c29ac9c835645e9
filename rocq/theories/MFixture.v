(** * MFixture: fixtures and golden-file tests.
    Models pace/src/testing/fixture.rs, the remaining cell conversions of
    pace/src/polars/series.rs, and the test procedure of
    pace/src/content/tests/*.rs and pace/src/ta/tests/*.rs: run a component over a
    frame and compare its outputs with the frame's "_target_" column. *)
From Verif Require Export MProgram.
From Coq Require Import Strings.String.
Local Open Scope string_scope.

Section Fixture.
  Context {F : Type} {NF : Num F}.
  (** [Duration::from_secs_f64], as in MProgram. *)
  Variable secs : F -> res Z.

  (** [Series::to_trade_dir], polars/series.rs:90-105. *)
  Definition series_to_trade_dir (col : list (option F)) : list (option direction) :=
    map cell_to_trade_dir col.
  (** [Fixture::load_ctx], testing/fixture.rs:20-25, the frame already read. *)
  Definition load_ctx (df : frame (F:=F)) : res (ctx F) :=
    d <- from_df secs df ;; ctx_new d.
  (** [test_target], testing/fixture.rs:33-35. *)
  Definition test_target (df : frame (F:=F)) : res (list (option F)) :=
    col <- df_column df "_target_" ;; Ok (series_to_f64 col).
  (** [test_trade_dir_target], testing/fixture.rs:37-39. *)
  Definition test_trade_dir_target (df : frame (F:=F)) : res (list (option direction)) :=
    col <- df_column df "_target_" ;; Ok (series_to_trade_dir col).
  (** A golden-file test, e.g. content/tests/relative_strength_index_test.rs:37-59
      (indicator) and 68-103 (strategy): load the frame, build the component, call
      it once per bar, compare the outputs with the target.  [fuel] as in [loop]. *)
  Definition golden {S O : Type} (fuel : nat) (new : res S) (step : ctx F -> S -> unit -> res (S * O))
      (target : frame (F:=F) -> res (list O)) (cmp : O -> O -> bool) (df : frame (F:=F)) : option (res unit) :=
    match c <- load_ctx df ;; s <- new ;; e <- target df ;; Ok (c, s, e) with
    | Panic => Some Panic
    | Ok (c, s, e) =>
        match loop fuel step (fun _ => tt) c s with
        | None => None
        | Some Panic => Some Panic
        | Some (Ok (_, _, os)) => Some (assert_iter false cmp os e)
        end
    end.
  (** the same for a strategy fed by an indicator,
      content/tests/relative_strength_index_test.rs:68-80. *)
  Definition fed {S1 S2 A O : Type} (step1 : ctx F -> S1 -> unit -> res (S1 * A)) (step2 : ctx F -> S2 -> A -> res (S2 * O))
      (c : ctx F) (s : S1 * S2) (x : unit) : res (S1 * S2 * O) :=
    '(s1, a) <- step1 c (fst s) x ;;
    '(s2, o) <- step2 c (snd s) a ;;
    Ok (s1, s2, o).
End Fixture.
