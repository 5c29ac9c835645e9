(** * MStats: pace/src/statistics/*.rs. *)
From Verif Require Export MCommon.

Section Stats.
  Context {F : Type} {NF : Num F}.
  Local Open Scope num_scope.

  (** ** statistics/common.rs *)
  (** [mean], :1-6. *)
  Definition mean (vs : list F) : F := fsum vs / fnat (length vs).
  (** [var_from_mean], :8-10. *)
  Definition var_from_mean (vs : list F) (m : F) : F :=
    fsum (map (fun x => fsq (x - m)) vs) / fnat (length vs).
  (** [var], :12-14. *)
  Definition var (vs : list F) : F := var_from_mean vs (mean vs).
  (** [stdev_from_var], :20-22. *)
  Definition stdev_from_var (v : F) : F := fsqrt v.
  (** [stdev], :16-18. *)
  Definition stdev (vs : list F) : F := stdev_from_var (var vs).

  (** ** statistics/math.rs.  The loop state is [(max_value, max_value_index)];
      [cmp v m] is the guard [_value > _max_value] resp. [_value < _max_value]. *)
  Fixpoint find_loop (cmp : F -> F -> bool) (arr : list (option F)) (i : nat)
      (best : option F) (best_i : option nat) : option nat :=
    match arr with
    | [] => best_i
    | v :: t =>
        match best, v with
        | None, Some x => find_loop cmp t (S i) (Some x) (Some i)
        | Some m, Some x =>
            if cmp x m then find_loop cmp t (S i) v (Some i)
            else find_loop cmp t (S i) best best_i
        | _, None => find_loop cmp t (S i) best best_i
        end
    end.
  (** the common shape of find_max_index and find_min_index, statistics/math.rs:1-53. *)
  Definition find_index (cmp : F -> F -> bool) (arr : list (option F)) : res nat :=
    _ <- assertb (negb (length arr =? 0)%nat) ;;
    match find_loop cmp arr 0 None None with
    | None => usub (length arr) 1
    | Some i => Ok i
    end.
  (** [find_max_index], :1-26. *)
  Definition find_max_index (arr : list (option F)) : res nat :=
    find_index (fun v m => fgtb v m) arr.
  (** [find_min_index], :28-53. *)
  Definition find_min_index (arr : list (option F)) : res nat :=
    find_index (fun v m => v <? m) arr.

  (** ** statistics/mean.rs: state [(sum, n)]. *)
  Record mean_st := mkMean { mn_sum : F; mn_n : nat }.
  (** Mean::new, statistics/mean.rs:11-17. *)
  Definition mean_new : mean_st := mkMean (fZ 0) 0.
  (** [next], :20-26. *)
  Definition mean_next (s : mean_st) (v : F) : mean_st * F :=
    let sum := mn_sum s + v in
    let n := (mn_n s + 1)%nat in
    (mkMean sum n, sum / fnat n).
  (** Mean::next, statistics/mean.rs:21-25. *)
  Definition mean_step (c : ctx F) (s : mean_st) (v : F) : res (mean_st * F) :=
    Ok (mean_next s v).

  (** ** statistics/welfords_var.rs *)
  Record wvar_st := mkWvar { wf_n : nat; wf_mean : F; wf_dev : F }.
  (** WelfordsVar::new, statistics/welfords_var.rs:12-19. *)
  Definition wvar_new : wvar_st := mkWvar 0 (fZ 0) (fZ 0).
  (** [next], :22-37. *)
  Definition wvar_next (s : wvar_st) (v : F) : wvar_st * F :=
    let n := (wf_n s + 1)%nat in
    let delta := v - wf_mean s in
    let m := wf_mean s + delta / fnat n in
    let d := wf_dev s + delta * (v - m) in
    (mkWvar n m d, if (n <=? 1)%nat then fZ 0 else d / (fnat n - fZ 1)).
  (** WelfordsVar::next, statistics/welfords_var.rs:23-36. *)
  Definition wvar_step (c : ctx F) (s : wvar_st) (v : F) : res (wvar_st * F) :=
    Ok (wvar_next s v).

  (** ** statistics/welfords_stdev.rs:19-23. *)
  Definition wstdev_step (c : ctx F) (s : wvar_st) (v : F) : res (wvar_st * F) :=
    let '(s', x) := wvar_next s v in Ok (s', stdev_from_var x).

  (** ** statistics/var.rs *)
  Record var_st := mkVar {
    va_fast : bool; va_cache : icache F; va_welford : wvar_st; va_mean : mean_st }.
  (** [build], :24-32. *)
  Definition var_build (fast : bool) : var_st := mkVar fast ic_new wvar_new mean_new.
  (** [next], :43-56. *)
  Definition var_next (s : var_st) (v : F) : var_st * F :=
    if va_fast s then
      let '(w, x) := wvar_next (va_welford s) v in
      (mkVar (va_fast s) (va_cache s) w (va_mean s), x)
    else
      let cache := ic_push (va_cache s) v in
      let '(m, mean) := mean_next (va_mean s) v in
      (mkVar (va_fast s) cache (va_welford s) m, var_from_mean (ic_all cache) mean).
  (** Var::next, statistics/var.rs:44-55. *)
  Definition var_step (c : ctx F) (s : var_st) (v : F) : res (var_st * F) :=
    Ok (var_next s v).

  (** ** statistics/stdev.rs: [build], :19-25; [next], :36-40.  The state is
      that of the inner [Var]. *)
  Definition sstdev_build (fast : bool) : var_st := var_build fast.
  (** Stdev::next, statistics/stdev.rs:37-39. *)
  Definition sstdev_next (s : var_st) (v : F) : var_st * F :=
    let '(s', x) := var_next s v in (s', stdev_from_var x).
  (** Stdev::next as a component, statistics/stdev.rs:37-39. *)
  Definition sstdev_step (c : ctx F) (s : var_st) (v : F) : res (var_st * F) :=
    Ok (sstdev_next s v).

  (** ** statistics/normalization.rs *)
  (** [clip_value], :1-3. *)
  Definition clip_value (v mn mx : F) : F := fmin (fmax v mn) mx.
  (** [scale_value_up], :5-14. *)
  Definition scale_value_up (v threshold mx : F) : F :=
    if v <=? threshold then fZ 0
    else clip_value ((v - threshold) / (mx - threshold)) (fZ 0) (fZ 1).
  (** [scale_value_down], :16-24. *)
  Definition scale_value_down (v threshold mn : F) : F :=
    if fgeb v threshold then fZ 0
    else clip_value ((v - threshold) / (mn - threshold)) (fZ 0) (fZ 1).
  (** [scale_value_centered], :26-30. *)
  Definition scale_value_centered (v m mn mx : F) : F :=
    let distance := (mx - mn) / fZ 2 in
    let abs_diff := fabs (v - m) in
    clip_value (fZ 1 - abs_diff / distance) (fZ 0) (fZ 1).
  (** [scale_value_around_mean], :32-34. *)
  Definition scale_value_around_mean (v m : F) : F := (fZ 2 * v - m) / m.
  (** [scale_value_min_max], :36-48. *)
  Definition scale_value_min_max (v mn mx : F) : F :=
    let '(v, mn, mx) :=
      if mn <? fZ 0 then
        let offset := fabs mn in (v + offset, fZ 0, mx + offset)
      else (v, mn, mx) in
    scale_value_around_mean v (mx - mn).
End Stats.
Arguments mean_st : clear implicits.
Arguments wvar_st : clear implicits.
Arguments var_st : clear implicits.
