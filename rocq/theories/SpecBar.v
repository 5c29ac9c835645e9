(** * SpecBar: real-valued bars for the exact-arithmetic statements. *)
From Verif Require Export SpecReal.
Local Open Scope R_scope.

Record rbar5 := mkRB { ro : R; rh : R; rl : R; rc : R; rv : R }.
Definition bar_of (r : rbar5) : bar xr :=
  mkBar (Some (Fin (ro r))) (Some (Fin (rh r))) (Some (Fin (rl r))) (Some (Fin (rc r))) (Some (Fin (rv r))).
(** Open and close between low and high. *)
Definition consistent (r : rbar5) : Prop := rl r <= ro r <= rh r /\ rl r <= rc r <= rh r.
(** The last [n] values of a complete series (when there are that many). *)
Definition full_window {A} (n : nat) (l : list A) : option (list A) :=
  if (n <=? length l)%nat then Some (lastn n l) else None.
(** Consecutive pairs. *)
Fixpoint pairs {A} (l : list A) : list (A * A) :=
  match l with a :: ((b :: _) as t) => (a, b) :: pairs t | _ => [] end.
(** Textbook true range of a bar given the previous one. *)
Definition Rtr (p r : rbar5) : R := Rmax (Rmax (rh r - rl r) (Rabs (rh r - rc p))) (Rabs (rl r - rc p)).
(** Element by element. *)
Definition zip {A B C} (f : A -> B -> C) (l : list A) (m : list B) : list C :=
  map (fun p => f (fst p) (snd p)) (combine l m).
Definition zip3 {A B C D} (f : A -> B -> C -> D) (l : list A) (m : list B) (n : list C) : list D :=
  zip (fun p c => f (fst p) (snd p) c) (combine l m) n.
(** A quantity of each bar and the one before it: missing at the first bar. *)
Definition with_prev_bar {A B} (f : A -> A -> option B) (bs : list A) : list (option B) :=
  match bs with [] => [] | _ => None :: map (fun p => f (fst p) (snd p)) (pairs bs) end.
