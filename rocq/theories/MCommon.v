(** * MCommon: pace/src/common/*.rs, pace/src/pinescript/common.rs,
      pace/src/core/timeframe.rs (and its copy pace/src/asset/timeframe.rs). *)
From Verif Require Export MCore.

(** ** Timeframe, core/timeframe.rs:1-31 (asset/timeframe.rs:1-31 is the same). *)
Inductive timeframe := OneDay | FourHours | OneHour.

(** [TryFrom<usize>], core/timeframe.rs:8-19.  The [Err(String)] becomes [None]. *)
Definition timeframe_try_from (v : nat) : option timeframe :=
  match v with
  | 0 => Some OneDay
  | 1 => Some FourHours
  | 2 => Some OneHour
  | _ => None
  end.

(** [TryInto<usize>], core/timeframe.rs:21-31 (never [Err]). *)
Definition timeframe_into (t : timeframe) : nat :=
  match t with OneDay => 0 | FourHours => 1 | OneHour => 2 end.

(** ** IncrementalCache, common/incremental_cache.rs.  State: [values],
    oldest first. *)
Section IncrementalCache.
  Context {T : Type}.
  (** IncrementalCache, common/incremental_cache.rs:4-7. *)
  Definition icache := list T.
  (** [new], common/incremental_cache.rs:10-15 ([with_capacity] has no
      observable effect). *)
  Definition ic_new : icache := [].
  (** [next], common/incremental_cache.rs:39-43. *)
  Definition ic_push (s : icache) (v : T) : icache := s ++ [v].
  (** [get], common/incremental_cache.rs:17-20. *)
  Definition ic_get (s : icache) (i : nat) : res T :=
    l1 <- usub (length s) 1 ;; j <- usub l1 i ;; unwrap (nth_error s j).
  (** [all], common/incremental_cache.rs:22-24. *)
  Definition ic_all (s : icache) : list T := s.
  (** [last], common/incremental_cache.rs:26-28. *)
  Definition ic_last (s : icache) : res T := unwrap (nth_error (rev s) 0).
  (** [first], common/incremental_cache.rs:30-32. *)
  Definition ic_first (s : icache) : res T := unwrap (nth_error s 0).
  (** [size], common/incremental_cache.rs:34-36. *)
  Definition ic_size (s : icache) : nat := length s.
End IncrementalCache.
Arguments icache : clear implicits.

(** ** WindowCache, common/window_cache.rs.  [values] is never truncated:
    the component keeps every value it was given and looks at the end. *)
Section WindowCache.
  Context {T : Type}.
  (** WindowCache, common/window_cache.rs:6-10. *)
  Record wcache := mkWC { wc_len : nat; wc_vals : list T }.
  (** [new], common/window_cache.rs:13-19. *)
  Definition wc_new (len : nat) : wcache := mkWC len [].
  (** [next], common/window_cache.rs:82-86. *)
  Definition wc_push (w : wcache) (v : T) : wcache := mkWC (wc_len w) (wc_vals w ++ [v]).
  (** [is_filled], common/window_cache.rs:21-23. *)
  Definition wc_is_filled (w : wcache) : bool := wc_len w <=? length (wc_vals w).
  (** [get], common/window_cache.rs:26-29. *)
  Definition wc_get (w : wcache) (i : nat) : res (option T) :=
    l1 <- usub (length (wc_vals w)) 1 ;; j <- usub l1 i ;; Ok (nth_error (wc_vals w) j).
  (** [all], common/window_cache.rs:32-40. *)
  Definition wc_all (w : wcache) : list T :=
    let size := length (wc_vals w) in
    let start := if size <? wc_len w then 0 else size - wc_len w in
    skipn start (wc_vals w).
  (** [last], common/window_cache.rs:43-45. *)
  Definition wc_last (w : wcache) : option T := nth_error (rev (wc_vals w)) 0.
  (** [first], common/window_cache.rs:48-54. *)
  Definition wc_first (w : wcache) : res (option T) :=
    if length (wc_vals w) <? wc_len w then Ok None
    else l1 <- usub (wc_len w) 1 ;; wc_get w l1.
  (** [size], common/window_cache.rs:56-58. *)
  Definition wc_size (w : wcache) : nat := length (wc_vals w).
End WindowCache.
Arguments wcache : clear implicits.

(** [normalize_value], common/window_cache.rs:62-67: flattening. *)
Definition wc_normalize {A} (v : option (option A)) : option A :=
  match v with None => None | Some x => x end.
(** [get_unwrapped], [last_unwrapped], [first_unwrapped],
    common/window_cache.rs:69-79. *)
Definition wc_get_unwrapped {A} (w : wcache (option A)) (i : nat) : res (option A) :=
  v <- wc_get w i ;; Ok (wc_normalize v).
(** WindowCache::last_unwrapped, common/window_cache.rs:73-75. *)
Definition wc_last_unwrapped {A} (w : wcache (option A)) : option A :=
  wc_normalize (wc_last w).
(** WindowCache::first_unwrapped, common/window_cache.rs:77-79. *)
Definition wc_first_unwrapped {A} (w : wcache (option A)) : res (option A) :=
  v <- wc_first w ;; Ok (wc_normalize v).

(** ** Position, common/position.rs:3-20. *)
Definition position_new : nat := 0.
(** Position::next, common/position.rs:15-19. *)
Definition position_step {F} (c : ctx F) (s : nat) (_ : unit) : res (nat * nat) :=
  Ok (s + 1, s).

Section Common.
  Context {F : Type} {NF : Num F}.
  Local Open Scope num_scope.

  (** ** FixNan, common/fixnan.rs:4-30.  State: [last_non_nan_value]. *)
  Definition fixnan_new : option F := None.
  (** FixNan::next, common/fixnan.rs:19-29. *)
  Definition fixnan_step (c : ctx F) (s : option F) (v : option F)
      : res (option F * option F) :=
    match v with
    | Some x => Ok (Some x, Some x)
    | None => Ok (s, s)
    end.

  (** ** WindowValidator, common/window_validator.rs:4-38. *)
  Record wvalid := mkWV { wv_len : nat; wv_last_none : nat; wv_was_none : bool }.
  (** [new], common/window_validator.rs:12-23. *)
  Definition wv_new (len : nat) : res wvalid :=
    _ <- assertb (1 <=? len)%nat ;; Ok (mkWV len 0 false).
  (** [next], common/window_validator.rs:27-37. *)
  Definition wv_step (c : ctx F) (s : wvalid) (v : option F) : res (wvalid * bool) :=
    match v with
    | None => Ok (mkWV (wv_len s) (c_index c) true, false)
    | Some _ =>
        if negb (wv_was_none s) then Ok (s, true)
        else d <- usub (c_index c) (wv_last_none s) ;; Ok (s, (wv_len s <=? d)%nat)
    end.

  (** ** Src, common/src.rs. *)
  Inductive src_kind := SOpen | SHigh | SLow | SClose | SVolume | SOHLC4 | SHLC3 | SHL2.
  (** common/src.rs:18-28. *)
  Definition ohlc4 (o h l c : F) : F := (o + h + l + c) / fZ 4.
  (** Src::hlc3, common/src.rs:22-24. *)
  Definition hlc3 (h l c : F) : F := (h + l + c) / fZ 3.
  (** Src::hl2, common/src.rs:26-28. *)
  Definition hl2 (h l : F) : F := (h + l) / fZ 2.
  (** [create_delegate] and [next], common/src.rs:45-78.  The delegate closure
      has no state of its own. *)
  Definition src_value (k : src_kind) (c : ctx F) : res (option F) :=
    match k with
    | SOpen => bar_open c
    | SHigh => bar_high c
    | SLow => bar_low c
    | SClose => bar_close c
    | SVolume => bar_volume c
    | SOHLC4 =>
        o <- bar_open c ;; o <- unwrap o ;;
        h <- bar_high c ;; h <- unwrap h ;;
        l <- bar_low c ;; l <- unwrap l ;;
        cl <- bar_close c ;; cl <- unwrap cl ;;
        Ok (Some (ohlc4 o h l cl))
    | SHLC3 =>
        h <- bar_high c ;; h <- unwrap h ;;
        l <- bar_low c ;; l <- unwrap l ;;
        cl <- bar_close c ;; cl <- unwrap cl ;;
        Ok (Some (hlc3 h l cl))
    | SHL2 =>
        h <- bar_high c ;; h <- unwrap h ;;
        l <- bar_low c ;; l <- unwrap l ;;
        Ok (Some (hl2 h l))
    end.
  (** Src::next, common/src.rs:75-77. *)
  Definition src_step (k : src_kind) (c : ctx F) (s : unit) (_ : unit)
      : res (unit * option F) :=
    v <- src_value k c ;; Ok (tt, v).

  (** ** pinescript/common.rs. *)
  (** [ps_add], :2-7. *)
  Definition ps_add (a b : option F) : option F :=
    match a, b with Some a, Some b => Some (a + b) | _, _ => None end.
  (** [ps_diff], :10-15. *)
  Definition ps_diff (a b : option F) : option F :=
    match a, b with Some a, Some b => Some (a - b) | _, _ => None end.
  (** [ps_div], :18-28. *)
  Definition ps_div (a b : option F) : option F :=
    match a, b with
    | Some a, Some b => if b ==? fZ 0 then None else Some (a / b)
    | _, _ => None
    end.
  (** [ps_nz], :31-33. *)
  Definition ps_nz (a : option F) : F := match a with Some a => a | None => fZ 0 end.
  (** [ps_max], :36-41; [ps_min], :44-49. *)
  Definition ps_max (a b : option F) : option F :=
    match a, b with Some a, Some b => Some (fmax a b) | _, _ => None end.
  (** ps_min, pinescript/common.rs:44-49. *)
  Definition ps_min (a b : option F) : option F :=
    match a, b with Some a, Some b => Some (fmin a b) | _, _ => None end.
  (** [ps_abs], :52-54. *)
  Definition ps_abs (a : option F) : option F := option_map fabs a.
End Common.
