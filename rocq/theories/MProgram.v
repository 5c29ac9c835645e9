(** * MProgram: reading a data frame, and the example program.
    Models pace/src/polars/in_memory_data_provider.rs, the file-type dispatch of
    pace/src/polars/io.rs and example/src/main.rs. *)
From Verif Require Export MContent MMetrics MTesting.
From Coq Require Import Strings.String.
Local Open Scope string_scope.

(** What [read_df] / [save_df] do with a path, by its extension
    ([get_filename_extension], utils/fs.rs:3-5), polars/io.rs:23-31, 33-42:
    which format is read or written.  The reading itself is polars'. *)
Inductive file_format := Parquet | Csv.
(** the extension match of read_df and save_df, polars/io.rs:21-40. *)
Definition df_format (extension : option string) : res file_format :=
  match extension with
  | Some e => if String.eqb e "parquet" then Ok Parquet else if String.eqb e "csv" then Ok Csv else Panic
  | None => Panic
  end.

Section Program.
  Context {F : Type} {NF : Num F}.
  (** [Duration::from_secs_f64]: nanoseconds, or a panic on a value that is
      negative, too large or not finite.  Left open. *)
  Variable secs : F -> res Z.

  (** A data frame: named columns, already cast to f64 by polars (missing
      cells are [None]). *)
  (** a polars DataFrame as named columns, polars/in_memory_data_provider.rs:10-19. *)
  Definition frame := list (string * list (option F)).
  (** [df.column(name).unwrap()]: a missing column panics. *)
  (** `df.column(name).unwrap()`, polars/in_memory_data_provider.rs:10-19. *)
  Fixpoint df_column (df : frame) (name : string) : res (list (option F)) :=
    match df with
    | nil => Panic
    | (n, col) :: t => if String.eqb n name then Ok col else df_column t name
    end.
  (** [Series::to_duration], polars/series.rs:73-88. *)
  Fixpoint series_to_duration (col : list (option F)) : res (list (option Z)) :=
    match col with
    | nil => Ok nil
    | v :: t =>
        d <- match v with
             | None => Ok None
             | Some x => if fisnan x then Ok None else n <- secs x ;; Ok (Some n)
             end ;;
        ds <- series_to_duration t ;;
        Ok (d :: ds)
    end.
  (** [InMemoryDataProvider::from_df], polars/in_memory_data_provider.rs:10-19. *)
  Definition from_df (df : frame) : res (provider F) :=
    open <- df_column df "open" ;;
    high <- df_column df "high" ;;
    low <- df_column df "low" ;;
    close <- df_column df "close" ;;
    volume <- df_column df "volume" ;;
    time <- df_column df "time" ;;
    time' <- series_to_duration time ;;
    provider_new (series_to_f64 open) (series_to_f64 high) (series_to_f64 low) (series_to_f64 close)
      (series_to_f64 volume) time'.

  (** The components of the example, example/src/main.rs:35-62. *)
  Record example_app := mkApp { ap_rsi : rsii_st (F:=F); ap_signal : thr_st (F:=F); ap_strategy : strategy F; ap_metrics : tvmetrics F }.
  (** the configuration, example/src/main.rs:35-41. *)
  Definition example_config : sconfig F :=
    mkSConfig (sc_on_close sconfig_default) (sc_continuous sconfig_default) (fZ 1000) (sc_with_equity sconfig_default).
  (** the constructions of main, example/src/main.rs:35-62. *)
  Definition app_new : res example_app :=
    let s := strategy_new example_config in
    let m := tv_new s (fZ 0) in
    r <- rsii_default ;;
    Ok (mkApp r (osc_strategy_new (fZ 50) (fZ 50)) s m).
  (** The body of the loop, :64-72, the context standing at bar [i]
      ([ctx.bar.index.set(i)] stores the index the iterator just returned). *)
  Definition app_step (c : ctx F) (a : example_app) (i : nat) : res (example_app * unit) :=
    let c := ctx_set_index c i in
    '(r, rsi) <- rsii_step c (ap_rsi a) tt ;;
    '(g, signal) <- thr_step c (ap_signal a) rsi ;;
    '(s, _) <- strategy_step c (ap_strategy a) signal ;;
    '(m, _) <- tv_step c (ap_metrics a) s ;;
    Ok (mkApp r g s m, tt).
  (** [main] without the file access and the printing, :29-72.  [fuel] as in
      [loop]. *)
  Definition example_main (fuel : nat) (df : frame) : option (res example_app) :=
    match d <- from_df df ;; c <- ctx_new d ;; a <- app_new ;; Ok (c, a) with
    | Panic => Some Panic
    | Ok (c, a) =>
        match loop fuel app_step (fun i => i) c a with
        | None => None
        | Some Panic => Some Panic
        | Some (Ok (_, a', _)) => Some (Ok a')
        end
    end.
End Program.
