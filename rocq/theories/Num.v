(** * Num: the arithmetic interface the model is written against.

    The Rust code computes on [f64].  The model is written once, over any type
    [F] with the operations below, and is then used at two instances:
    - [IEEE.v]: IEEE-754 binary64, round-to-nearest-even (Flocq), with a
      single NaN;
    - [Exact.v]: real arithmetic extended with the infinities and NaN, no
      rounding.
    A theorem proved for every instance of [Num] therefore holds bit for bit
    of the [f64] program (up to NaN payloads). *)
From Verif Require Export Base.

(** the f64 operations used anywhere in /repo/pace/src (+ - * / unary -, abs, sqrt, log10, comparisons, is_nan, literals), e.g. ta/stdev.rs:46-83, content/choppiness_index.rs:60-80. *)
Class Num (F : Type) := {
  fadd : F -> F -> F;
  fsub : F -> F -> F;
  fmul : F -> F -> F;
  fdiv : F -> F -> F;
  fneg : F -> F;
  fabs : F -> F;
  fsqrt : F -> F;
  flog10 : F -> F;
  fltb : F -> F -> bool;
  fleb : F -> F -> bool;
  feqb : F -> F -> bool;
  fisnan : F -> bool;
  fofZ : Z -> F
}.

Declare Scope num_scope.
Delimit Scope num_scope with num.
Infix "+" := fadd : num_scope.
Infix "-" := fsub : num_scope.
Infix "*" := fmul : num_scope.
Infix "/" := fdiv : num_scope.
Notation "- x" := (fneg x) : num_scope.
Infix "<?" := fltb : num_scope.
Infix "<=?" := fleb : num_scope.
Infix "==?" := feqb (at level 70, no associativity) : num_scope.

Section Derived.
  Context {F : Type} {NF : Num F}.
  Local Open Scope num_scope.

  (** Rust [a > b], [a >= b] on [f64]. *)
  (** Rust `a > b` on f64, e.g. ta/cross.rs:15. *)
  Definition fgtb (a b : F) : bool := b <? a.
  (** Rust `a >= b` on f64, e.g. ta/cross.rs:24. *)
  Definition fgeb (a b : F) : bool := b <=? a.

  (** Integer-valued literals [0.0], [1.0], [100.0], ... and [x as f64]. *)
  (** a Rust f64 literal with an integral value, e.g. ta/percent_rank.rs:49. *)
  Definition fZ (z : Z) : F := fofZ z.
  (** Rust `n as f64` for a usize, e.g. ta/simple_moving_average.rs:24. *)
  Definition fnat (n : nat) : F := fofZ (Z.of_nat n).

  (** Decimal literals such as [0.015] are written [lit 15 1000].  The IEEE
      quotient of two exactly representable integers is the correctly rounded
      value of the rational, i.e. exactly the [f64] the Rust literal denotes. *)
  (** a Rust f64 literal with a fractional value, e.g. ta/stdev.rs:38. *)
  Definition lit (num den : Z) : F := fofZ num / fofZ den.

  (** Rust [f64::max] / [f64::min]: a NaN argument is ignored.  (When the two
      arguments are zeros of opposite sign Rust leaves the sign unspecified;
      the model returns the first argument.) *)
  (** Rust `f64::max`, e.g. pinescript/common.rs:38. *)
  Definition fmax (a b : F) : F :=
    if fisnan a then b else if fisnan b then a else if a <? b then b else a.
  (** Rust `f64::min`, e.g. pinescript/common.rs:46. *)
  Definition fmin (a b : F) : F :=
    if fisnan a then b else if fisnan b then a else if b <? a then b else a.

  (** [powi(2)] and [powf(2.0)]: modelled as the rounded product [x * x]. *)
  (** Rust `x.powi(2)` / `x.powf(2.0)`, e.g. statistics/common.rs:9. *)
  Definition fsq (a : F) : F := a * a.

  (** [iter().sum::<f64>()]: left fold from [0.0]. *)
  (** Rust `iter().sum::<f64>()`, e.g. statistics/common.rs:3. *)
  Definition fsum (l : list F) : F := fold_left (fun acc x => acc + x) l (fZ 0).
End Derived.
