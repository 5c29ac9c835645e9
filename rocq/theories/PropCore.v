(** * PropCore: C01-C08, C27, C36, C45, C46, C75. *)
From Verif Require Import PShare PContent1 IEEE Exact.

(** ** C01 *)
Section C01.
  Context {F : Type} {NF : Num F}.

  (** The results of [n] successive calls of [Iterator::next] on a context. *)
  Fixpoint calls (n : nat) (c : ctx F) : list (option nat) :=
    match n with
    | 0 => []
    | S n => let '(c', o) := ctx_next c in o :: calls n c'
    end.

  Lemma calls_exhausted n : forall c, c_running c = true -> c_last c <= c_index c ->
    calls n c = repeat None n.
  Proof.
    induction n as [|n IH]; intros c R L; [reflexivity|]. cbn [calls repeat].
    destruct (ctx_next_exhausted c R L) as (c' & -> & R' & L'). f_equal. apply IH; assumption.
  Qed.
  Lemma calls_running k : forall c n, c_running c = true -> c_index c + k = c_last c ->
    calls (k + n) c = map Some (seq (S (c_index c)) k) ++ repeat None n.
  Proof.
    induction k as [|k IH]; intros c n R L; [apply calls_exhausted; [exact R|lia]|].
    cbn [Nat.add calls]. unfold ctx_next. rewrite R; cbn [negb].
    destruct (Nat.leb_spec (c_index c + 1) (c_last c)); [|lia].
    cbn [seq map app]. rewrite Nat.add_1_r. f_equal. rewrite IH; [reflexivity|exact R|cbn; lia].
  Qed.

  (** The iterator yields a, a+1, ..., b, then [None] forever. *)
  Theorem C01_iterator (d : provider F) c n : p_start d <= p_end d -> ctx_new d = Ok c ->
    calls (p_end d - p_start d + 1 + n) c =
    map Some (seq (p_start d) (p_end d - p_start d + 1)) ++ repeat None n.
  Proof.
    intros L E. rewrite ctx_new_ok in E by exact L. injection E as <-.
    rewrite Nat.add_1_r. cbn [Nat.add calls ctx_next c_running negb seq map app c_first].
    unfold ctx_next; cbn [c_running negb c_first]. f_equal.
    rewrite calls_running; [reflexivity|reflexivity|cbn; lia].
  Qed.

  (** What a loop body that records the shared bar index records. *)
  Theorem C01_body_sees_every_bar_once (d : provider F) c fuel : p_start d <= p_end d -> ctx_new d = Ok c ->
    p_end d - p_start d + 1 < fuel ->
    exists cf, loop fuel index_step (fun _ => tt) c tt =
               Some (Ok (cf, tt, seq (p_start d) (p_end d - p_start d + 1))).
  Proof.
    intros L E H. rewrite loop_fresh with (d := d) by assumption.
    assert (M : map (fun _ : nat => tt) (seq (p_start d) (p_end d - p_start d + 1)) = repeat tt (p_end d - p_start d + 1)).
    { assert (G : forall k a, map (fun _ : nat => tt) (seq a k) = repeat tt k).
      { induction k as [|k IH]; intros a; [reflexivity|]. cbn. rewrite IH. reflexivity. }
      apply G. }
    rewrite M. pose proof (index_run (ctx_set_running c true) (p_end d - p_start d + 1)) as R.
    unfold run in R. destruct (run_st index_step _ tt _) as [[[] os]|]; [|discriminate].
    cbn in R. injection R as ->. eexists. rewrite ctx_new_ok in E by exact L. injection E as <-. reflexivity.
  Qed.

  (** The whole loop, for any body: it ends, and its outputs are those of
      calling the body once per bar, in order ([run]), panics included. *)
  Theorem C01_loop_is_run {S I O} (step : ctx F -> S -> I -> res (S * O)) (input : nat -> I) (d : provider F) c s fuel :
    p_start d <= p_end d -> ctx_new d = Ok c -> p_end d - p_start d + 1 < fuel ->
    exists r, loop fuel step input c s = Some r /\
    rmap snd r = run step (ctx_set_running c true) s (map input (seq (p_start d) (p_end d - p_start d + 1))) /\
    c_index (ctx_set_running c true) = p_start d.
  Proof.
    intros L E H. rewrite loop_fresh with (d := d) by assumption.
    eexists. split; [reflexivity|]. split.
    - unfold run. destruct (run_st _ _ _ _) as [[sf os]|]; reflexivity.
    - rewrite ctx_new_ok in E by exact L. injection E as <-. reflexivity.
  Qed.
  (** A provider whose end precedes its start is rejected. *)
  Theorem C01_empty_range_rejected (d : provider F) : p_end d < p_start d -> ctx_new d = Panic.
  Proof. intros H. unfold ctx_new, usub. destruct (Nat.leb_spec (p_start d) (p_end d)); [lia|reflexivity]. Qed.
End C01.

(** ** C02 *)
Section C02.
  Context {F : Type} {NF : Num F}.

  (** Any program over any number of handles behaves exactly as if every
      handle were the number of one of a list of independent contexts, clones
      carrying the number of their original; the results of all [next] calls
      and what every handle shows at the end are those of that context. *)
  Theorem C02_clones_share (ops : list (@sop F)) :
    match arun [] [] ops with
    | Panic => srun [] [] ops = Panic
    | Ok (cs, ns, os) =>
        exists hp hs, srun [] [] ops = Ok (hp, hs, os) /\ length hs = length ns /\
        forall k n, nth_error ns k = Some n ->
          exists h c, nth_error hs k = Some h /\ nth_error cs n = Some c /\ h_view hp h = Ok c
    end.
  Proof.
    assert (S0 : sim (F:=F) [] [] [] []) by (split; [reflexivity|constructor]).
    pose proof (share_sim ops _ _ _ _ S0) as H. destruct (arun [] [] ops) as [[[cs ns] os]|]; [|exact H].
    destruct H as (hp & hs & E & HS). exists hp, hs. split; [exact E|]. split.
    - destruct HS as [_ F2]. clear -F2. induction F2; cbn; [reflexivity|rewrite IHF2; reflexivity].
    - apply sim_view; exact HS.
  Qed.

  (** A second loop over a clone of an exhausted context yields nothing. *)
  Theorem C02_second_loop_is_empty (d : provider F) (c : ctx F) : p_start d <= p_end d -> ctx_new d = Ok c ->
    let k := p_end d - p_start d + 2 in
    arun [] [] (ONew d :: OClone 0 :: repeat (ONext 0) k ++ [ONext 1]) =
    Ok ([ctx_at (ctx_set_running c true) k], [0; 0],
        map Some (seq (p_start d) (p_end d - p_start d + 1)) ++ [None; None]).
  Proof.
    intros L E. cbn zeta. cbn [arun]. rewrite E; cbn [rbind app length]. cbn [vget nth_error unwrap rbind app].
    rewrite ctx_new_ok in E by exact L. injection E as <-.
    replace (p_end d - p_start d + 2) with (S (S (p_end d - p_start d))) by lia.
    replace (p_end d - p_start d + 1) with (S (p_end d - p_start d)) by lia.
    set (m := p_end d - p_start d).
    assert (G : forall B j i, i + j = p_end d ->
       arun [mkCtx d (p_start d) (p_end d) B i true] [0; 0] (repeat (ONext 0) (S j) ++ [ONext 1]) =
       Ok ([mkCtx d (p_start d) (p_end d) B (i + j + 2) true], [0; 0], map Some (seq (S i) j) ++ [None; None])).
    { intros B. induction j as [|j IH]; intros i Hi.
      - cbn [repeat app arun vget nth_error unwrap rbind firstn skipn]. unfold ctx_next; cbn [c_running negb c_index c_last].
        destruct (Nat.leb_spec (i + 1) (p_end d)); [lia|]. cbn [rbind arun vget nth_error unwrap firstn skipn app].
        unfold ctx_set_index; cbn [c_running negb c_index c_last c_data c_first c_bars].
        destruct (Nat.leb_spec (i + 1 + 1) (p_end d)); [lia|]. cbn. replace (i + 1 + 1) with (i + 0 + 2) by lia. reflexivity.
      - change (repeat (ONext 0) (S (S j)) ++ [ONext 1]) with (@ONext F 0 :: (repeat (ONext 0) (S j) ++ [ONext 1])).
        cbn [arun vget nth_error unwrap rbind firstn skipn app]. unfold ctx_next; cbn [c_running negb c_index c_last].
        destruct (Nat.leb_spec (i + 1) (p_end d)); [|lia].
        unfold ctx_set_index; cbn [c_running negb c_index c_last c_data c_first c_bars].
        rewrite IH by lia. cbn [rbind seq map app]. replace (i + 1 + j + 2) with (i + S j + 2) by lia.
        replace (i + 1) with (S i) by lia. reflexivity. }
    change (repeat (ONext 0) (S (S m)) ++ [ONext 1]) with (@ONext F 0 :: (repeat (ONext 0) (S m) ++ [ONext 1])).
    cbn [arun vget nth_error unwrap rbind firstn skipn app]. unfold ctx_next; cbn [c_running negb c_first].
    unfold ctx_set_running; cbn [c_data c_first c_last c_bars c_index].
    assert (K : p_start d + m = p_end d) by (unfold m; lia). rewrite (G _ m (p_start d) K). cbn [rbind seq map app].
    unfold ctx_at, ctx_set_index; cbn. replace (p_start d + m + 2) with (p_start d + S (S m)) by lia. reflexivity.
  Qed.
End C02.

(** ** C03 *)
Section C03.
  Context {F : Type} {NF : Num F}.
  (** All five accessors read their own column: [nth_error col j] is the value
      of bar [j]. *)
  Definition col_at (v : list (option F)) (j : nat) : option F := join (nth_error v j).

  Lemma prev_at v (c : ctx F) n : c_index c < length v ->
    ctx_prev v c n = Ok (if n <=? c_index c then col_at v (c_index c - n) else None).
  Proof.
    intros H. unfold ctx_prev. destruct (Nat.ltb_spec (c_index c) n), (Nat.leb_spec n (c_index c)); try lia; [reflexivity|].
    unfold vget, col_at. destruct (nth_error v (c_index c - n)) eqn:E; [reflexivity|].
    apply nth_error_None in E; lia.
  Qed.
  Theorem C03_lookback (c : ctx F) n :
    let d := c_data c in let i := c_index c in
    let at_ v := if n <=? i then col_at v (i - n) else None in
    (i < length (p_high d) -> ctx_high c n = Ok (at_ (p_high d))) /\
    (i < length (p_low d) -> ctx_low c n = Ok (at_ (p_low d))) /\
    (i < length (p_close d) -> ctx_close c n = Ok (at_ (p_close d))) /\
    (i < length (p_volume d) -> ctx_volume c n = Ok (at_ (p_volume d))).
  Proof. cbn zeta. repeat split; apply prev_at. Qed.

  Lemma range_at v (c : ctx F) len : c_index c < length v ->
    ctx_range v c len =
    if (1 <=? len) && (len <=? c_index c + 1)
    then Ok (map (fun k => col_at v (c_index c + 1 - len + k)) (seq 0 len)) else Panic.
  Proof.
    intros H. destruct (Nat.leb_spec 1 len) as [L1|L1]; [|apply ctx_range_panic; lia].
    destruct (Nat.leb_spec len (c_index c + 1)) as [L2|L2]; cbn [andb]; [|apply ctx_range_panic; lia].
    rewrite ctx_range_spec by lia. f_equal. unfold lastn. rewrite firstn_length_le by lia.
    apply nth_ext with (d := None) (d' := None).
    - rewrite skipn_length, firstn_length_le, map_length, seq_length by lia. lia.
    - rewrite skipn_length, firstn_length_le by lia. intros k Hk.
      assert (E : nth k (map (fun k => col_at v (c_index c + 1 - len + k)) (seq 0 len)) None = col_at v (c_index c + 1 - len + k)).
      { rewrite nth_indep with (d' := (fun k => col_at v (c_index c + 1 - len + k)) 0)
          by (rewrite map_length, seq_length; lia).
        rewrite (map_nth (fun k => col_at v (c_index c + 1 - len + k))), seq_nth by lia. reflexivity. }
      rewrite E. clear E. unfold col_at.
      assert (N : forall l j, nth j l None = join (nth_error (A:=option F) l j)).
      { intros l; induction l as [|a l IH]; intros [|j]; cbn; auto. }
      rewrite N. f_equal.
      assert (SK : forall (l : list (option F)) m j, nth_error (skipn m l) j = nth_error l (m + j)).
      { intros l; induction l as [|a l IH]; intros [|m] j; cbn; auto. destruct j; reflexivity. }
      rewrite SK, nth_error_firstn_lt by lia. f_equal. lia.
  Qed.
  (** The window accessors return the bars [i+1-len .. i] oldest first, or panic. *)
  Theorem C03_windows (c : ctx F) len :
    let d := c_data c in let i := c_index c in
    let win v := if (1 <=? len) && (len <=? i + 1)
                 then Ok (map (fun k => col_at v (i + 1 - len + k)) (seq 0 len)) else Panic in
    (i < length (p_open d) -> ctx_opens c len = win (p_open d)) /\
    (i < length (p_high d) -> ctx_highs c len = win (p_high d)) /\
    (i < length (p_low d) -> ctx_lows c len = win (p_low d)) /\
    (i < length (p_close d) -> ctx_closes c len = win (p_close d)) /\
    (i < length (p_volume d) -> ctx_volumes c len = win (p_volume d)).
  Proof. cbn zeta. repeat split; apply range_at. Qed.
End C03.

(** ** C04 *)
Section C04.
  Context {F : Type} {NF : Num F}.
  Theorem C04_new (o h l c v : list (option F)) (t : list (option Z)) :
    (c = [] -> provider_new o h l c v t = Panic) /\
    (c <> [] -> exists d, provider_new o h l c v t = Ok d /\ p_start d = 0 /\ p_end d = length c - 1 /\
       forall x, ctx_new d = Ok x -> forall i, let y := ctx_set_index x i in
         bar_open y = vget o i /\ bar_high y = vget h i /\ bar_low y = vget l i /\
         bar_close y = vget c i /\ bar_volume y = vget v i /\ bar_time y = vget t i).
  Proof.
    split; [intros ->; reflexivity|]. intros N. unfold provider_new, usub.
    destruct (Nat.leb_spec 1 (length c)); [|destruct c; [congruence|cbn in *; lia]].
    cbn [rbind]. eexists; split; [reflexivity|]. split; [reflexivity|]. split; [reflexivity|].
    intros x E i. unfold ctx_new, usub in E. cbn in E. injection E as <-. repeat split.
  Qed.
  Theorem C04_from_values (vs : list (option F)) :
    (vs = [] -> provider_from_values vs = Panic) /\
    (vs <> [] -> exists d, provider_from_values vs = Ok d /\ p_start d = 0 /\ p_end d = length vs - 1 /\
       forall x, ctx_new d = Ok x -> forall i, i < length vs -> let y := ctx_set_index x i in
         bar_open y = vget vs i /\ bar_high y = vget vs i /\ bar_low y = vget vs i /\
         bar_close y = vget vs i /\ bar_volume y = vget vs i /\ bar_time y = Ok None).
  Proof.
    split; [intros ->; reflexivity|]. intros N. unfold provider_from_values, usub.
    destruct (Nat.leb_spec 1 (length vs)); [|destruct vs; [congruence|cbn in *; lia]].
    cbn [rbind]. eexists; split; [reflexivity|]. split; [reflexivity|]. split; [reflexivity|].
    intros x E i L. unfold ctx_new, usub in E. cbn in E. injection E as <-.
    cbv zeta. repeat (split; [reflexivity|]). unfold bar_time, vget; cbn.
    rewrite nth_error_repeat by exact L. reflexivity.
  Qed.
End C04.

(** ** C05, C06 *)
Section Caches.
  Context {T : Type}.
  Theorem C05_window_cache (n : nat) (xs : list T) : 1 <= n ->
    let w := fold_left wc_push xs (wc_new n) in
    wc_all w = lastn n xs /\
    wc_is_filled w = (n <=? length xs) /\
    wc_first w = Ok (if n <=? length xs then ago (n - 1) xs else None) /\
    wc_last w = newest xs /\
    (forall i, wc_get w i = if i <? length xs then Ok (ago i xs) else Panic) /\
    wc_size w = length xs.
  Proof.
    intros L w. assert (E : w = mkWC n xs) by (unfold w, wc_new; apply wc_pushes). rewrite E.
    split; [apply wc_all_lastn|]. split; [reflexivity|]. split.
    - rewrite wc_first_ago by exact L. f_equal. destruct (Nat.leb_spec n (length xs)); [reflexivity|].
      apply ago_unfilled. lia.
    - split; [apply wc_last_newest|]. split; [|reflexivity]. intros i.
      destruct (Nat.ltb_spec i (length xs)); [apply wc_get_ago|apply wc_get_panic]; assumption.
  Qed.
  Theorem C06_incremental_cache (xs : list T) :
    let s := fold_left ic_push xs ic_new in
    ic_all s = xs /\ ic_size s = length xs /\
    (forall i, ic_get s i = match ago i xs with Some x => Ok x | None => Panic end) /\
    ic_last s = match newest xs with Some x => Ok x | None => Panic end /\
    ic_first s = match xs with x :: _ => Ok x | [] => Panic end.
  Proof.
    intros s. assert (E : s = xs) by (unfold s; rewrite ic_pushes; reflexivity). rewrite E.
    split; [reflexivity|]. split; [reflexivity|]. split; [intros i; rewrite ic_get_ago; destruct (ago i xs); reflexivity|].
    split; [unfold ic_last; rewrite nth_error_rev_0; destruct (newest xs); reflexivity|].
    destruct xs; reflexivity.
  Qed.
End Caches.

(** ** C07 *)
Section C07.
  Context {F : Type} {NF : Num F}.
  Theorem C07_fixnan (c : ctx F) xs :
    run fixnan_step c fixnan_new xs = Ok (each_prefix (fun h => newest (present h)) xs).
  Proof. apply fixnan_run. Qed.
  Theorem C07_position (c : ctx F) n :
    run position_step c position_new (repeat tt n) = Ok (seq 0 n).
  Proof.
    rewrite position_run. f_equal. unfold each_prefix, prefixes. rewrite map_map, repeat_length.
    rewrite <- (map_id (seq 0 n)) at 2. apply map_ext_in. intros k Hk. apply in_seq in Hk.
    rewrite firstn_length_le; [lia|rewrite repeat_length; lia].
  Qed.
End C07.

(** ** C08 *)
Section C08.
  Context {F : Type} {NF : Num F}.
  Theorem C08_window_validator (c : ctx F) len xs : 1 <= len ->
    exists os, run_new (wv_new len) wv_step c xs = Ok os /\ length os = length xs /\
    forall k b, nth_error os k = Some b -> (b = true <-> ~ In None (lastn len (firstn (S k) xs))).
  Proof.
    intros L. rewrite wv_run by exact L. eexists; split; [reflexivity|]. split; [apply length_each_prefix|].
    intros k b E. unfold each_prefix, prefixes in E. rewrite !nth_error_map in E.
    destruct (nth_error (seq 0 (length xs)) k) as [j|] eqn:EJ; [|discriminate]. cbn in E.
    assert (j = k).
    { assert (Hk : k < length xs) by (rewrite <- (seq_length (length xs) 0); apply nth_error_Some; congruence).
      rewrite (nth_error_nth' _ 0) in EJ by (rewrite seq_length; exact Hk).
      rewrite seq_nth in EJ by exact Hk. injection EJ as <-. reflexivity. }
    subst j. injection E as <-. unfold valid_window. pose proof (all_some_None (lastn len (firstn (S k) xs))) as N.
    destruct (all_some _); cbn; split; intros Q; try reflexivity; try discriminate.
    - intros C. apply N in C. discriminate.
    - exfalso. apply Q, N. reflexivity.
  Qed.
  Theorem C08_zero_rejected : wv_new 0 = Panic.
  Proof. reflexivity. Qed.
End C08.

(** ** C27 *)
Section C27.
  Context {F : Type} {NF : Num F}.
  (** Any component, any state, any inputs: boxing changes nothing. *)
  Theorem C27_box_transparent {S I O} (step : ctx F -> S -> I -> res (S * O)) c s xs :
    run ostep c (box step s) xs = run step c s xs.
  Proof. apply run_box. Qed.
  Theorem C27_ma_selects len (c : ctx F) xs :
    run_new (ma_new SMA len) ma_step c xs = run_new (sma_new len) sma_step c xs /\
    run_new (ma_new EMA len) ma_step c xs = run_new (ema_new len) ema_step c xs /\
    run_new (ma_new RMA len) ma_step c xs = run_new (rma_new len) rma_step c xs /\
    run_new (ma_new SWMA len) ma_step c xs = run_new swma_new swma_step c xs.
  Proof.
    repeat split; [apply ma_run_sma|apply ma_run_ema|apply ma_run_rma|apply ma_run_swma].
  Qed.
End C27.

(** ** C36 *)
Section C36.
  Theorem C36_timeframe :
    (forall t, timeframe_try_from (timeframe_into t) = Some t) /\
    (forall n t, timeframe_try_from n = Some t -> timeframe_into t = n) /\
    (forall n, 3 <= n -> timeframe_try_from n = None).
  Proof.
    split; [intros []; reflexivity|]. split.
    - intros [|[|[|n]]] t E; try discriminate; injection E as <-; reflexivity.
    - intros [|[|[|n]]] L; try lia; reflexivity.
  Qed.
  Theorem C36_opposite d : get_opposite (get_opposite d) = d /\ get_opposite d <> d.
  Proof. destruct d; split; try reflexivity; discriminate. Qed.
  (** Directions in f64 (and in exact arithmetic: any ordered instance). *)
  Theorem C36_direction {F} {NF : Num F} {OF : OrdNum F} :
    (forall d : option direction, trade_direction_from_f64 (Some (trade_direction_to_f64 d)) = d) /\
    trade_direction_from_f64 None = None /\
    (forall (v : F) d, trade_direction_from_f64 (Some v) = Some d <->
       match d with Long => feqb v (fZ 1) = true | Short => feqb v (fZ (-1)) = true end).
  Proof.
    assert (E11 : forall a b, (Z.abs a <= 2 ^ 53)%Z -> (Z.abs b <= 2 ^ 53)%Z ->
              feqb (fZ a : F) (fZ b) = (a =? b)%Z) by (intros; apply eq_fZ; assumption).
    assert (B1 : (Z.abs 1 <= 2 ^ 53)%Z) by (cbn; lia).
    assert (Bm : (Z.abs (-1) <= 2 ^ 53)%Z) by (cbn; lia).
    assert (B0 : (Z.abs 0 <= 2 ^ 53)%Z) by (cbn; lia).
    split; [|split; [reflexivity|]].
    - intros [[]|]; unfold trade_direction_from_f64, trade_direction_to_f64; rewrite !E11 by assumption; reflexivity.
    - intros v d. unfold trade_direction_from_f64.
      assert (X : feqb v (fZ 1) = true -> feqb v (fZ (-1)) = true -> False).
      { intros A B. rewrite eq_le in A, B. apply andb_true_iff in A, B. destruct A as [A1 A2], B as [C1 C2].
        assert (Q : fleb (fZ 1 : F) (fZ (-1)) = true) by (eapply le_trans; eassumption).
        rewrite le_fZ in Q by assumption. discriminate. }
      destruct (feqb v (fZ 1)) eqn:A, (feqb v (fZ (-1))) eqn:B; destruct d; split; intros H; try reflexivity; try discriminate.
      exfalso; apply X; reflexivity.
  Qed.
End C36.

(** ** C45 *)
Section C45.
  Context {F : Type} {NF : Num F}.
  Theorem C45_pine (a b : option F) :
    (forall x y, a = Some x -> b = Some y ->
       ps_add a b = Some (fadd x y) /\ ps_diff a b = Some (fsub x y) /\
       ps_max a b = Some (fmax x y) /\ ps_min a b = Some (fmin x y) /\
       ps_div a b = (if feqb y (fZ 0) then None else Some (fdiv x y))) /\
    (a = None \/ b = None ->
       ps_add a b = None /\ ps_diff a b = None /\ ps_max a b = None /\ ps_min a b = None /\ ps_div a b = None) /\
    (forall x, ps_abs (Some x) = Some (fabs x) /\ ps_nz (Some x) = x) /\
    ps_abs (@None F) = None /\ ps_nz (@None F) = fZ 0.
  Proof.
    split; [intros x y -> ->; repeat split|]. split; [|repeat split].
    intros [->| ->]; destruct a || destruct b; repeat split.
  Qed.
End C45.

(** ** C46 *)
Section C46.
  Context {F : Type} {NF : Num F}.
  (** The price a source stands for, on a bar. *)
  Definition price_of (k : src_kind) (b : bar F) : option F :=
    match k with
    | SOpen => b_open b | SHigh => b_high b | SLow => b_low b | SClose => b_close b
    | SVolume => b_volume b
    | SOHLC4 => match b_open b, b_high b, b_low b, b_close b with
                | Some o, Some h, Some l, Some c => Some (fdiv (fadd (fadd (fadd o h) l) c) (fZ 4))
                | _, _, _, _ => None end
    | SHLC3 => match b_high b, b_low b, b_close b with
               | Some h, Some l, Some c => Some (fdiv (fadd (fadd h l) c) (fZ 3)) | _, _, _ => None end
    | SHL2 => match b_high b, b_low b with
              | Some h, Some l => Some (fdiv (fadd h l) (fZ 2)) | _, _ => None end
    end.
  Definition plain (k : src_kind) : bool :=
    match k with SOHLC4 | SHLC3 | SHL2 => false | _ => true end.
  (** If every averaged price is available, the source yields it bar by bar. *)
  Theorem C46_src k (c : ctx F) bs : fresh_over c bs ->
    (plain k = true \/ Forall (fun b => price_of k b <> None) bs) ->
    run (src_step k) c tt (ticks (length bs)) = Ok (map (price_of k) bs).
  Proof.
    intros H D. apply (src_run k c bs H). apply Forall_forall. intros b Hb.
    destruct D as [D|D].
    - destruct k; try discriminate; exact I.
    - rewrite Forall_forall in D. specialize (D b Hb). destruct k; cbn in *; auto.
  Qed.
  (** The averaged kinds panic on a missing price. *)
  Theorem C46_src_missing_panics k (c : ctx F) h b t : fresh_over c (h ++ b :: t) ->
    plain k = false -> price_of k b = None ->
    src_step k (ctx_at c (length h)) tt tt = Panic.
  Proof.
    intros H P N. unfold src_step. rewrite (proj2 (src_value_ok k c h b t H)); [reflexivity|].
    destruct k; try discriminate; cbn in *; intros C; apply C, N.
  Qed.
End C46.

(** ** C75 *)
Section C75.
  Context {F : Type} {NF : Num F}.
  Theorem C75_cells (col : list (option F)) i :
    nth_error (series_to_f64 col) i =
    option_map (fun v => match v with Some x => if fisnan x then None else Some x | None => None end) (nth_error col i).
  Proof. apply nth_error_map. Qed.
  Theorem C75_merge (a b : list (option F)) i x y :
    nth_error a i = Some x -> nth_error b i = Some y ->
    nth_error (merge_two_columns a b) i = Some (Some (cell_to_f64 x, cell_to_f64 y)).
  Proof.
    unfold merge_two_columns, series_to_f64. revert b i. induction a as [|u a IH]; intros [|v b] [|i] A B; try discriminate; cbn in *.
    - injection A as <-; injection B as <-; reflexivity.
    - apply IH; assumption.
  Qed.
  Context {OF : OrdNum F}.
  Theorem C75_direction_cells :
    (forall d : option direction, cell_to_trade_dir (Some (trade_direction_to_f64 d)) = d) /\
    cell_to_trade_dir (@None F) = None /\
    (forall v : F, fisnan v = true -> cell_to_trade_dir (Some v) = None) /\
    (forall (v : F) d, cell_to_trade_dir (Some v) = Some d <->
       match d with Long => feqb v (fZ 1) = true | Short => feqb v (fZ (-1)) = true end).
  Proof.
    destruct C36_direction as (A & _ & B).
    assert (NN : forall v z, feqb v (fZ z : F) = true -> fisnan v = false).
    { intros v z E. rewrite eq_le in E. apply andb_true_iff in E. destruct E as [E _].
      destruct (fisnan v) eqn:N; [|reflexivity]. rewrite le_nan_l in E by exact N. discriminate. }
    split; [|split; [reflexivity|split]].
    - intros d. pose proof (A d) as Ad. unfold cell_to_trade_dir.
      destruct d as [[]|]; unfold trade_direction_to_f64 in *; rewrite nan_fZ; exact Ad.
    - intros v N. unfold cell_to_trade_dir. rewrite N. reflexivity.
    - intros v d. unfold cell_to_trade_dir. destruct (fisnan v) eqn:N; [|apply B].
      split; [discriminate|]. destruct d; intros E; apply NN in E; congruence.
  Qed.
End C75.

(** ** Non-vacuity *)
From Verif Require Import Inst.
(** Any non-empty list of bars gives a fresh context over it. *)
Theorem fresh_context_exists {F} {NF : Num F} (bs : list (bar F)) : bs <> [] ->
  exists d c, p_start d = 0 /\ p_end d = length bs - 1 /\ ctx_new d = Ok c /\ fresh_over c bs.
Proof.
  intros H. destruct (ctx_over_fresh bs H) as (c & E & Fr & _). unfold ctx_over, provider_new in E.
  unfold usub in E. rewrite map_length in E.
  destruct (Nat.leb_spec 1 (length bs)); [|destruct bs; [congruence|cbn in *; lia]]. cbn [rbind] in E.
  eexists _, c. split; [|split; [|split; [exact E|exact Fr]]]; reflexivity.
Qed.
Example C01_ex : calls 8 ctx6 = [Some 0; Some 1; Some 2; Some 3; Some 4; Some 5; None; None].
Proof. reflexivity. Qed.
Example C02_ex : match arun [] [] [ONew (c_data ctx6); OClone 0; ONew (c_data ctx6); ONext 0; ONext 1; ONext 2; ONext 0] with
  | Ok (_, ns, os) => ns = [0; 0; 1] /\ os = [Some 0; Some 1; Some 0; Some 2] | Panic => False end.
Proof. split; reflexivity. Qed.
Example C03_ex : ctx_high (ctx_set_index ctx6 3) 2 = Ok (Some (q 14)) /\ ctx_high (ctx_set_index ctx6 3) 4 = Ok None /\
  ctx_lows (ctx_set_index ctx6 3) 2 = Ok (qs [12; 8]%Z) /\ ctx_lows (ctx_set_index ctx6 3) 5 = Panic.
Proof. repeat split. Qed.
Example C05_ex : let w := fold_left wc_push [1; 2; 3; 4] (wc_new 3) in
  wc_all w = [2; 3; 4] /\ wc_first w = Ok (Some 2) /\ wc_get w 1 = Ok (Some 3).
Proof. repeat split. Qed.
Example C06_ex : ic_get (fold_left ic_push [1; 2; 3] ic_new) 2 = Ok 1 /\ ic_get (fold_left ic_push [1; 2; 3] ic_new) 3 = Panic.
Proof. repeat split. Qed.
Example C07_ex : run fixnan_step ctx6 fixnan_new [None; Some (q 3); None; Some (q 4)] =
  Ok [None; Some (q 3); Some (q 3); Some (q 4)].
Proof. reflexivity. Qed.
Example C08_ex : run_new (wv_new 2) wv_step ctx6 [Some (q 1); None; Some (q 2); Some (q 3)] =
  Ok [true; false; false; true].
Proof. reflexivity. Qed.
Example C27_ex : gives same_opt (run_new (ma_new SMA 2) ma_step ctx6 (qs [2; 4; 6]%Z)) [None; Some (q 3); Some (q 5)] = true.
Proof. vm_compute. reflexivity. Qed.
Example C46_ex : Forall (fun b => price_of SHLC3 b <> None) bars6.
Proof. repeat (constructor; [discriminate|]). constructor. Qed.

Print Assumptions C01_iterator.
Print Assumptions C01_body_sees_every_bar_once.
Print Assumptions C01_loop_is_run.
Print Assumptions C02_clones_share.
Print Assumptions C02_second_loop_is_empty.
Print Assumptions C03_lookback.
Print Assumptions C03_windows.
Print Assumptions C04_new.
Print Assumptions C04_from_values.
Print Assumptions C05_window_cache.
Print Assumptions C06_incremental_cache.
Print Assumptions C07_fixnan.
Print Assumptions C07_position.
Print Assumptions C08_window_validator.
Print Assumptions C27_box_transparent.
Print Assumptions C27_ma_selects.
Print Assumptions C36_timeframe.
Print Assumptions C36_opposite.
Print Assumptions C36_direction.
Print Assumptions C45_pine.
Print Assumptions C46_src.
Print Assumptions C46_src_missing_panics.
Print Assumptions C75_cells.
Print Assumptions C75_merge.
Print Assumptions C75_direction_cells.
