(** * SpecStrategy: an independent description of what a strategy trades.

    Nothing here refers to the state of the model: a signal history is turned
    into a list of orders, and the orders are applied one by one to a book of
    positions. *)
From Verif Require Export Spec.

Section SpecStrategy.
  Context {F : Type} {NF : Num F}.
  Local Open Scope num_scope.

  (** A position: direction, (tick, price) of entry, size, (tick, price) of
      exit if it has been left. *)
  Record position := Pos {
    pos_dir : direction; pos_in : nat * F; pos_size : F; pos_out : option (nat * F) }.
  Definition pos_closed (p : position) : bool := is_some (pos_out p).
  Definition sign (d : direction) : F := match d with Long => fZ 1 | Short => fZ (-1) end.
  (** The profit of a position valued at price [x]. *)
  Definition gain (p : position) (x : F) : F := (x - snd (pos_in p)) * pos_size p * sign (pos_dir p).
  (** The profit it was closed with. *)
  Definition realised (p : position) : F :=
    match pos_out p with Some (_, x) => gain p x | None => fZ 0 end.
  (** A running total from zero, in order. *)
  Definition total (xs : list F) : F := fold_left fadd xs (fZ 0).
  (** The closed positions' profits, oldest first. *)
  Definition profits (ps : list position) : list F := map realised (filter pos_closed ps).

  (** An order: tick, price, direction. *)
  Definition order := (nat * F * direction)%type.
  Definition size_for (cfg : sconfig F) (ps : list position) (price : F) : F :=
    if sc_with_equity cfg then
      let equity := sc_capital cfg + total (profits ps) + fZ 0 in
      if (equity <=? fZ 0) || (price <=? fZ 0) then fZ 0 else equity / price
    else fZ 1.
  Definition enter (cfg : sconfig F) (ps : list position) (o : order) : position :=
    let '(t, x, d) := o in Pos d (t, x) (size_for cfg ps x) None.
  Definition leave (p : position) (o : order) : position :=
    let '(t, x, _) := o in Pos (pos_dir p) (pos_in p) (pos_size p) (Some (t, x)).

  (** The fill rule.  Flat: open a position.  In a position of the same
      direction: nothing.  In a position of the other direction: leave it and,
      in continuous mode, open one in the order's direction. *)
  Definition place (cfg : sconfig F) (ps : list position) (o : order) : list position :=
    match newest ps with
    | None => ps ++ [enter cfg ps o]
    | Some p =>
        if pos_closed p then ps ++ [enter cfg ps o]
        else if dir_eqb (pos_dir p) (snd o) then ps
        else
          let left := removelast ps ++ [leave p o] in
          if sc_continuous cfg then left ++ [enter cfg left o] else left
    end.
  Definition book (cfg : sconfig F) (os : list order) : list position := fold_left (place cfg) os [].

  (** The price in a column at a tick.  (A missing price shows as zero here;
      the theorems say when the code panics on one instead.) *)
  Definition quote (v : list (option F)) (i : nat) : F :=
    match nth_error v i with Some (Some x) => x | _ => fZ 0 end.
  Definition order_at (v : list (option F)) (i : nat) (sig : option direction) : list order :=
    match sig with Some d => [(i, quote v i, d)] | None => [] end.
  (** The orders of a signal history whose first bar is tick [i0]: a signal
      becomes an order at the close of its own bar (on_bar_close), or at the
      open of the next bar; in the latter case the last signal has not become
      an order yet. *)
  Definition orders (cfg : sconfig F) (d : provider F) (i0 : nat) (sigs : list (option direction)) : list order :=
    if sc_on_close cfg then
      flat_map (fun k => order_at (p_close d) (i0 + k) (nth k sigs None)) (seq 0 (length sigs))
    else
      flat_map (fun k => order_at (p_open d) (i0 + k + 1) (nth k sigs None)) (seq 0 (length sigs - 1)).

  (** How a position is reported in the API. *)
  Definition as_trade (p : position) : trade F :=
    mkTrade (pos_dir p) (pos_closed p) (Some (fst (pos_in p))) (Some (snd (pos_in p)))
      (option_map fst (pos_out p)) (option_map snd (pos_out p)) (Some (pos_size p)) (realised p).

  (** Every bar from the context's current one on, for [n] bars, has an open
      and a close. *)
  Definition priced (c : ctx F) (n : nat) : Prop :=
    forall k, (k < n)%nat ->
      (exists o, nth_error (p_open (c_data c)) (c_index c + k) = Some (Some o)) /\
      (exists x, nth_error (p_close (c_data c)) (c_index c + k) = Some (Some x)).
End SpecStrategy.
Arguments position : clear implicits.
