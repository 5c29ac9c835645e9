(** * MCore: data provider, context, and how a component is driven.
    Models pace/src/core/*.rs. *)
From Verif Require Export Num.

Section Core.
  Context {F : Type} {NF : Num F}.

  (** [InMemoryDataProvider], core/in_memory_data_provider.rs:8-17.
      A [Duration] is a number of nanoseconds. *)
  Record provider := mkProvider {
    p_open : list (option F);
    p_high : list (option F);
    p_low : list (option F);
    p_close : list (option F);
    p_volume : list (option F);
    p_time : list (option Z);
    p_start : nat;
    p_end : nat
  }.

  (** [InMemoryDataProvider::new], core/in_memory_data_provider.rs:73-95.
      [close.len() - 1] underflows on an empty series. *)
  Definition provider_new (open high low close volume : list (option F))
      (time : list (option Z)) : res provider :=
    e <- usub (length close) 1 ;;
    Ok (mkProvider open high low close volume time 0 e).

  (** [InMemoryDataProvider::from_values], core/in_memory_data_provider.rs:97-108. *)
  Definition provider_from_values (values : list (option F)) : res provider :=
    e <- usub (length values) 1 ;;
    Ok (mkProvider values values values values values
          (repeat None (length values)) 0 e).

  (** [Context], core/context.rs:78-89, together with the [Bar] it owns
      (core/context.rs:13-16).  The [Rc<Cell<_>>] fields are inlined: one
      [ctx] value is the state all clones of one context share at one moment
      (context clones share both cells, core/context.rs:114-126; the sharing
      itself is modelled in [MShare.v]). *)
  Record ctx := mkCtx {
    c_data : provider;
    c_first : nat;
    c_last : nat;
    c_bars : nat;
    c_index : nat;
    c_running : bool
  }.

  (** [Context::new], core/context.rs:93-111. *)
  Definition ctx_new (d : provider) : res ctx :=
    n <- usub (p_end d) (p_start d) ;;
    Ok (mkCtx d (p_start d) (p_end d) (n + 1) (p_start d) false).

  (** `bar.index.set(i)`, core/context.rs:198-212. *)
  Definition ctx_set_index (c : ctx) (i : nat) : ctx :=
    mkCtx (c_data c) (c_first c) (c_last c) (c_bars c) i (c_running c).
  (** `is_running.set(b)`, core/context.rs:198-212. *)
  Definition ctx_set_running (c : ctx) (b : bool) : ctx :=
    mkCtx (c_data c) (c_first c) (c_last c) (c_bars c) (c_index c) b.

  (** [impl Iterator for Context], core/context.rs:195-213. *)
  Definition ctx_next (c : ctx) : ctx * option nat :=
    if negb (c_running c) then (ctx_set_running c true, Some (c_first c))
    else
      let i := c_index c + 1 in
      let c' := ctx_set_index c i in
      if i <=? c_last c then (c', Some i) else (c', None).

  (** [Bar::open] ... [Bar::volume], [Bar::time], core/context.rs:29-31, 53-75:
      the value at the current index; out of range panics. *)
  Definition bar_open (c : ctx) : res (option F) := vget (p_open (c_data c)) (c_index c).
  (** Bar::high, core/context.rs:58-60. *)
  Definition bar_high (c : ctx) : res (option F) := vget (p_high (c_data c)) (c_index c).
  (** Bar::low, core/context.rs:63-65. *)
  Definition bar_low (c : ctx) : res (option F) := vget (p_low (c_data c)) (c_index c).
  (** Bar::close, core/context.rs:68-70. *)
  Definition bar_close (c : ctx) : res (option F) := vget (p_close (c_data c)) (c_index c).
  (** Bar::volume, core/context.rs:73-75. *)
  Definition bar_volume (c : ctx) : res (option F) := vget (p_volume (c_data c)) (c_index c).
  (** Bar::time, core/context.rs:29-31. *)
  Definition bar_time (c : ctx) : res (option Z) := vget (p_time (c_data c)) (c_index c).

  (** [Bar::is_up], core/context.rs:43-45. *)
  Definition bar_is_up (c : ctx) : res bool :=
    cl <- bar_close c ;; cl <- unwrap cl ;;
    op <- bar_open c ;; op <- unwrap op ;;
    Ok (fgeb cl op).

  (** [Bar::at_length], core/context.rs:48-50. *)
  Definition at_length (c : ctx) (len : nat) : res bool :=
    l1 <- usub len 1 ;; Ok (l1 <=? c_index c).

  (** [Context::high(n)] ... [Context::volume(n)], core/context.rs:128-162. *)
  Definition ctx_prev (v : list (option F)) (c : ctx) (n : nat) : res (option F) :=
    if c_index c <? n then Ok None else vget v (c_index c - n).
  (** Context::high, core/context.rs:129-135. *)
  Definition ctx_high (c : ctx) (n : nat) := ctx_prev (p_high (c_data c)) c n.
  (** Context::low, core/context.rs:138-144. *)
  Definition ctx_low (c : ctx) (n : nat) := ctx_prev (p_low (c_data c)) c n.
  (** Context::close, core/context.rs:147-153. *)
  Definition ctx_close (c : ctx) (n : nat) := ctx_prev (p_close (c_data c)) c n.
  (** Context::volume, core/context.rs:156-162. *)
  Definition ctx_volume (c : ctx) (n : nat) := ctx_prev (p_volume (c_data c)) c n.

  (** [Context::opens(length)] ... [Context::volumes(length)],
      core/context.rs:164-192 with [get_*_for_range],
      core/in_memory_data_provider.rs:52-70:
      [&v[tick - (length - 1) .. tick + 1]]. *)
  Definition ctx_range (v : list (option F)) (c : ctx) (len : nat) : res (list (option F)) :=
    l1 <- usub len 1 ;;
    start <- usub (c_index c) l1 ;;
    vslice v start (c_index c + 1).
  (** Context::opens, core/context.rs:165-168. *)
  Definition ctx_opens (c : ctx) (len : nat) := ctx_range (p_open (c_data c)) c len.
  (** Context::highs, core/context.rs:171-174. *)
  Definition ctx_highs (c : ctx) (len : nat) := ctx_range (p_high (c_data c)) c len.
  (** Context::lows, core/context.rs:177-180. *)
  Definition ctx_lows (c : ctx) (len : nat) := ctx_range (p_low (c_data c)) c len.
  (** Context::closes, core/context.rs:183-186. *)
  Definition ctx_closes (c : ctx) (len : nat) := ctx_range (p_close (c_data c)) c len.
  (** Context::volumes, core/context.rs:189-192. *)
  Definition ctx_volumes (c : ctx) (len : nat) := ctx_range (p_volume (c_data c)) c len.

  (** Move to the next bar (what [ctx_next] does to the index while running). *)
  (** the increment of core/context.rs:198-212 while bars remain. *)
  Definition ctx_advance (c : ctx) : ctx := ctx_set_index c (S (c_index c)).

  (** How a component ([impl Incremental<I, O>], core/incremental.rs:4-6) is
      used: [next] is called once per bar, the context moves one bar between
      calls.  [step c s x] models [next]: it sees the shared context at the
      current bar, the component state and the input, and returns the new
      state and the output, or panics.  The result is all outputs in order
      together with the final state, or [Panic] if some call panics. *)
  Fixpoint run_st {S I O : Type} (step : ctx -> S -> I -> res (S * O))
      (c : ctx) (s : S) (xs : list I) : res (S * list O) :=
    match xs with
    | [] => Ok (s, [])
    | x :: t =>
        '(s1, o) <- step c s x ;;
        '(s2, os) <- run_st step (ctx_advance c) s1 t ;;
        Ok (s2, o :: os)
    end.

  (** feeding a list of inputs to Incremental::next (core/incremental.rs:4-14), one bar per call. *)
  Definition run {S I O : Type} (step : ctx -> S -> I -> res (S * O))
      (c : ctx) (s : S) (xs : list I) : res (list O) :=
    rmap snd (run_st step c s xs).

  (** The same for a component whose constructor may panic. *)
  (** the same after a constructor that may panic. *)
  Definition run_new {S I O : Type} (new : res S) (step : ctx -> S -> I -> res (S * O))
      (c : ctx) (xs : list I) : res (list O) :=
    s <- new ;; run step c s xs.

  (** The user-level loop of docs/README.md and of every test:
      [for _ in ctx { out.push(component.next(input)) }].  [fuel] bounds the
      number of [Iterator::next] calls; the loop ends when it returns [None].
      Running out of fuel is the error [None], distinguished from both a
      normal end and a panic. *)
  (** the `for _ in ctx` loop of the users, core/context.rs:198-212 (see example/src/main.rs:64-72). *)
  Fixpoint loop {S I O : Type} (fuel : nat) (step : ctx -> S -> I -> res (S * O))
      (input : nat -> I) (c : ctx) (s : S) : option (res (ctx * S * list O)) :=
    match fuel with
    | 0 => None
    | S fuel' =>
        match ctx_next c with
        | (c', None) => Some (Ok (c', s, []))
        | (c', Some i) =>
            match step c' s (input i) with
            | Panic => Some Panic
            | Ok (s', o) =>
                match loop fuel' step input c' s' with
                | None => None
                | Some Panic => Some Panic
                | Some (Ok (cf, sf, os)) => Some (Ok (cf, sf, o :: os))
                end
            end
        end
    end.

  (** [Box<dyn Incremental<I, O>>] (core/incremental.rs:8-13; used as [AnySrc],
      common/src.rs:4, and [AnyMa], ta/moving_average.rs:17): an object with a
      hidden state, reduced to what [next] does. *)
  CoInductive obj (I O : Type) : Type :=
  | Obj : (ctx -> I -> res (obj I O * O)) -> obj I O.

  Arguments Obj {I O} _.

  (** Incremental::next through a box, core/incremental.rs:6-13. *)
  Definition onext {I O} (o : obj I O) : ctx -> I -> res (obj I O * O) :=
    match o with Obj f => f end.

  (** the same in the shape of a step function, core/incremental.rs:6-13. *)
  Definition ostep {I O} (c : ctx) (o : obj I O) (x : I) : res (obj I O * O) := onext o c x.

  (** [to_box]: hide the state of a component. *)
  CoFixpoint box {S I O : Type} (step : ctx -> S -> I -> res (S * O)) (s : S) : obj I O :=
    Obj (fun c x =>
           match step c s x with
           | Ok (s', o) => Ok (box step s', o)
           | Panic => Panic
           end).
End Core.

Arguments provider : clear implicits.
Arguments ctx : clear implicits.
Arguments obj : clear implicits.
Arguments Obj {F I O} _.
