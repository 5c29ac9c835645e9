(** * Base: the result monad, checked [usize] arithmetic and vector access.

    Every definition of the model that can panic in Rust returns a [res].
    [Panic] is the error value for: [unwrap] on [None], out-of-range slice or
    vector access, a failed [assert!], and [usize] subtraction underflow (the
    debug / overflow-check build; in a release build the subtraction wraps, so
    a theorem concluding [Ok _] covers both builds and a theorem concluding
    [Panic] by underflow speaks of the overflow-check build). *)
From Coq Require Export List Arith ZArith Lia Bool.
Export ListNotations.
Set Implicit Arguments.
Set Asymmetric Patterns.

(** Result of a Rust call: a value or a panic; no single Rust source (every fn of /repo/pace/src that can panic). *)
Inductive res (A : Type) : Type :=
| Ok : A -> res A
| Panic : res A.
Arguments Ok {A} a.
Arguments Panic {A}.

(** Rust sequencing `a; b` when `a` may panic (all of /repo/pace/src). *)
Definition rbind {A B} (r : res A) (k : A -> res B) : res B :=
  match r with Ok a => k a | Panic => Panic end.

Declare Scope res_scope.
Delimit Scope res_scope with res.
Notation "x <- e ;; k" := (rbind e (fun x => k))
  (at level 61, e at next level, right associativity) : res_scope.
Notation "' p <- e ;; k" := (rbind e (fun x => match x with p => k end))
  (at level 61, p pattern, e at next level, right associativity) : res_scope.
Open Scope res_scope.

(** Auxiliary: map over a result (no Rust counterpart). *)
Definition rmap {A B} (f : A -> B) (r : res A) : res B :=
  match r with Ok a => Ok (f a) | Panic => Panic end.

(** Rust [Option::unwrap]. *)
(** Rust `Option::unwrap`, e.g. core/context.rs:39, common/src.rs:54. *)
Definition unwrap {A} (o : option A) : res A :=
  match o with Some a => Ok a | None => Panic end.

(** Rust [assert!(b)]. *)
(** Rust `assert!(b)`, e.g. ta/simple_moving_average.rs:20, ta/highest.rs:19. *)
Definition assertb (b : bool) : res unit := if b then Ok tt else Panic.

(** Rust [a - b] on [usize] with overflow checks. *)
(** Rust `a - b` on usize with overflow checks, e.g. core/context.rs:134, common/window_cache.rs:27. *)
Definition usub (a b : nat) : res nat := if b <=? a then Ok (a - b) else Panic.

(** Rust [v[i]]. *)
(** Rust `v[i]`, e.g. core/in_memory_data_provider.rs:29. *)
Definition vget {A} (v : list A) (i : nat) : res A := unwrap (nth_error v i).

(** Rust [&v[a..b]]. *)
(** Rust `&v[a..b]`, e.g. core/in_memory_data_provider.rs:53. *)
Definition vslice {A} (v : list A) (a b : nat) : res (list A) :=
  if (a <=? b) && (b <=? length v) then Ok (firstn (b - a) (skipn a v)) else Panic.

(** Rust [usize::abs_diff]. *)
(** Rust `usize::abs_diff`, e.g. ta/bars.rs:8. *)
Definition abs_diff (a b : nat) : nat := if a <? b then b - a else a - b.

(** Rust [x as i32] for a non-negative [x] (two's-complement truncation). *)
(** Rust `x as i32` for a non-negative x (two's-complement truncation), e.g. ta/bars.rs:8. *)
Definition wrap32 (z : Z) : Z :=
  let m := (z mod 2 ^ 32)%Z in if (m <? 2 ^ 31)%Z then m else (m - 2 ^ 32)%Z.

(** Rust unary [-x] on [i32] with overflow checks. *)
(** Rust unary `-x` on i32 with overflow checks, e.g. ta/bars.rs:8. *)
Definition neg32 (z : Z) : res Z :=
  if (z =? - 2 ^ 31)%Z then Panic else Ok (- z)%Z.

(** Rust [x as i64] for a non-negative [x]. *)
(** Rust `x as i64` for a non-negative x, core/context.rs:39. *)
Definition wrap64 (z : Z) : Z :=
  let m := (z mod 2 ^ 64)%Z in if (m <? 2 ^ 63)%Z then m else (m - 2 ^ 64)%Z.

(** Rust `Option::is_some`, e.g. strategy/trade.rs:85. *)
Definition is_some {A} (o : option A) : bool :=
  match o with Some _ => true | None => false end.
(** Rust `Option::is_none`, e.g. ta/true_range.rs:12. *)
Definition is_none {A} (o : option A) : bool := negb (is_some o).
