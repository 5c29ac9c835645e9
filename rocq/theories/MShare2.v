(** * MShare2: a loop over one context driving several components, each of
    which owns a clone of some context.

    Every component of the library stores the [Context] it was built with
    (e.g. ta/simple_moving_average.rs:8-15) and reads the bar through it; the
    user's loop moves the context it iterates over (example/src/main.rs:64-72,
    benchmarks/pace/src/main.rs:110-118). *)
From Verif Require Export MShare.

Section Share2.
  Context {F : Type} {NF : Num F} {O : Type}.
  (** One component: the handle it stores and its hidden state
      (core/incremental.rs:4-14). *)
  Definition owned : Type := @handle F * obj F unit O.
  (** [component.next(())]: it sees the context through its own handle, e.g.
      content/aroon.rs:46-62. *)
  Definition h_call (hp : heap) (k : owned) : res (owned * O) :=
    c <- h_view hp (fst k) ;;
    '(o, y) <- ostep c (snd k) tt ;;
    Ok ((fst k, o), y).
  (** The body of the loop: [next] of every component, in order
      (example/src/main.rs:64-72). *)
  Fixpoint h_calls (hp : heap) (ks : list owned) : res (list owned * list O) :=
    match ks with
    | [] => Ok ([], [])
    | k :: t =>
        '(k', y) <- h_call hp k ;;
        '(t', ys) <- h_calls hp t ;;
        Ok (k' :: t', y :: ys)
    end.
  (** [for _ in ctx { .. }], core/context.rs:195-213; [fuel] as in [loop]. *)
  Fixpoint h_loop (fuel : nat) (hp : heap) (h : @handle F) (ks : list owned)
      : option (res (heap * list (list O))) :=
    match fuel with
    | 0 => None
    | S fuel' =>
        match h_next hp h with
        | Panic => Some Panic
        | Ok (hp', None) => Some (Ok (hp', []))
        | Ok (hp', Some _) =>
            match h_calls hp' ks with
            | Panic => Some Panic
            | Ok (ks', ys) =>
                match h_loop fuel' hp' h ks' with
                | None => None
                | Some Panic => Some Panic
                | Some (Ok (hp'', rows)) => Some (Ok (hp'', ys :: rows))
                end
            end
        end
    end.
  (** Moving the context by hand: [for i in first..=last { ctx.bar.index.set(i);
      .. }], benchmarks/pace/src/main.rs:113-116. *)
  Fixpoint h_drive (hp : heap) (h : @handle F) (is : list nat) (ks : list owned)
      : res (heap * list (list O)) :=
    match is with
    | [] => Ok (hp, [])
    | i :: t =>
        k <- vget hp (h_addr h) ;;
        let hp' := set_nth hp (h_addr h) (mkCells i (cl_running k)) in
        '(ks', ys) <- h_calls hp' ks ;;
        '(hp'', rows) <- h_drive hp' h t ks' ;;
        Ok (hp'', ys :: rows)
    end.
End Share2.
