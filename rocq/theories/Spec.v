(** * Spec: the vocabulary the properties are stated in.

    Nothing here refers to the state of a model component.  A [history] is the
    list of inputs a component has been given so far, oldest first. *)
From Verif Require Export MContent MShare.

(** ** Histories *)

(** [prefixes [a; b; c] = [[a]; [a; b]; [a; b; c]]]: the history at each call. *)
Definition prefixes {A} (xs : list A) : list (list A) :=
  map (fun k => firstn (S k) xs) (seq 0 (length xs)).

(** The outputs of a component whose output at each call is the function [f]
    of the history up to and including that call. *)
Definition each_prefix {A B} (f : list A -> B) (xs : list A) : list B := map f (prefixes xs).

(** The last [n] elements (all of them if there are fewer). *)
Definition lastn {A} (n : nat) (l : list A) : list A := skipn (length l - n) l.

(** The most recent element. *)
Definition newest {A} (l : list A) : option A := nth_error l (length l - 1).

(** The element [k] calls ago ([ago 0] is the most recent). *)
Definition ago {A} (k : nat) (l : list A) : option A :=
  if k <? length l then nth_error l (length l - 1 - k) else None.

(** All values present? *)
Fixpoint all_some {A} (l : list (option A)) : option (list A) :=
  match l with
  | [] => Some []
  | None :: _ => None
  | Some a :: t => option_map (cons a) (all_some t)
  end.

(** The values of the last [n] inputs, provided that many inputs exist and
    none of them is missing. *)
Definition window {A} (n : nat) (h : list (option A)) : option (list A) :=
  if n <=? length h then all_some (lastn n h) else None.

(** The present values of a list. *)
Fixpoint present {A} (l : list (option A)) : list A :=
  match l with
  | [] => []
  | Some a :: t => a :: present t
  | None :: t => present t
  end.

(** Flattening: an absent or missing value. *)
Definition join {A} (o : option (option A)) : option A :=
  match o with Some x => x | None => None end.

Definition obind {A B} (o : option A) (f : A -> option B) : option B :=
  match o with Some a => f a | None => None end.

(** ** Market data *)
Record bar (F : Type) := mkBar {
  b_open : option F; b_high : option F; b_low : option F; b_close : option F; b_volume : option F }.
Arguments mkBar {F}.
Arguments b_open {F}. Arguments b_high {F}. Arguments b_low {F}.
Arguments b_close {F}. Arguments b_volume {F}.

(** The provider [d] holds exactly the bars [bs]. *)
Definition holds {F} (d : provider F) (bs : list (bar F)) : Prop :=
  p_open d = map b_open bs /\ p_high d = map b_high bs /\ p_low d = map b_low bs /\
  p_close d = map b_close bs /\ p_volume d = map b_volume bs.

(** [c] is a context at its first bar, over a provider holding exactly the
    bars [bs] and starting at bar 0. *)
Definition fresh_over {F} (c : ctx F) (bs : list (bar F)) : Prop :=
  holds (c_data c) bs /\ c_index c = 0.

(** One call per bar with no input. *)
Definition ticks (n : nat) : list unit := repeat tt n.

(** A source that is one of the price columns. *)
Definition col {F} (k : bar F -> option F) (bs : list (bar F)) : list (option F) := map k bs.

(** [k] missing values followed by present ones: what an indicator computed
    from gap-free data looks like. *)
Definition warm {A} (k : nat) (vs : list A) : list (option A) := repeat None k ++ map Some vs.
