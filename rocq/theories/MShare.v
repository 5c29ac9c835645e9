(** * MShare: several components holding clones of one context.

    In Rust a [Context] is a handle: its [index] and [is_running] fields are
    [Rc<Cell<_>>] (core/context.rs:13-16, 78-89), [Clone] clones the [Rc]s
    (core/context.rs:114-126, and [Bar] derives the same sharing through its
    own [Rc], :18-24), so a move of one handle is seen by all of them.  Here
    the cells live in a heap and a handle holds their addresses. *)
From Verif Require Export MCore.

Section Share.
  Context {F : Type} {NF : Num F}.

  (** One pair of cells. *)
  (** the two `Rc<Cell<..>>` of a Context, core/context.rs:78-89. *)
  Record cells := mkCells { cl_index : nat; cl_running : bool }.
  (** The heap: cells by address. *)
  (** Auxiliary: all Rc cells (core/context.rs:78-89). *)
  Definition heap := list cells.
  (** A handle: provider, first/last bar and bar count by value, cells by
      address. *)
  (** one Context value: shared provider and cells, core/context.rs:78-89. *)
  Record handle := mkHandle {
    h_data : provider F; h_first : nat; h_last : nat; h_bars : nat; h_addr : nat }.

  (** Auxiliary: `Cell::set` on one cell of the heap, core/context.rs:198-212. *)
  Definition set_nth {A} (l : list A) (i : nat) (v : A) : list A :=
    firstn i l ++ match skipn i l with [] => [] | _ :: t => v :: t end.

  (** [Context::new], core/context.rs:93-111: allocates the cells. *)
  Definition h_new (hp : heap) (d : provider F) : res (heap * handle) :=
    n <- usub (p_end d) (p_start d) ;;
    Ok (hp ++ [mkCells (p_start d) false],
        mkHandle d (p_start d) (p_end d) (n + 1) (length hp)).
  (** [Context::clone], core/context.rs:114-126. *)
  Definition h_clone (h : handle) : handle :=
    mkHandle (h_data h) (h_first h) (h_last h) (h_bars h) (h_addr h).
  (** [impl Iterator for Context], core/context.rs:195-213. *)
  Definition h_next (hp : heap) (h : handle) : res (heap * option nat) :=
    k <- vget hp (h_addr h) ;;
    if negb (cl_running k) then
      Ok (set_nth hp (h_addr h) (mkCells (cl_index k) true), Some (h_first h))
    else
      let i := cl_index k + 1 in
      let hp' := set_nth hp (h_addr h) (mkCells i (cl_running k)) in
      if i <=? h_last h then Ok (hp', Some i) else Ok (hp', None).
  (** What a component holding the handle [h] sees: [Bar::index] etc. read the
      cells (core/context.rs:22-31). *)
  Definition h_view (hp : heap) (h : handle) : res (ctx F) :=
    k <- vget hp (h_addr h) ;;
    Ok (mkCtx (h_data h) (h_first h) (h_last h) (h_bars h) (cl_index k) (cl_running k)).
  (** One [for] iteration of another loop over some handle. *)
  (** a sequence of Context::next calls on any clones, core/context.rs:198-212. *)
  Fixpoint h_nexts (hp : heap) (hs : list handle) : res (heap * list (option nat)) :=
    match hs with
    | [] => Ok (hp, [])
    | h :: t =>
        '(hp1, o) <- h_next hp h ;;
        '(hp2, os) <- h_nexts hp1 t ;;
        Ok (hp2, o :: os)
    end.
End Share.
