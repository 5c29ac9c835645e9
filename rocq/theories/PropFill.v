(** * PropFill: C121, what the trades of a backtest depend on. *)
From Verif Require Import PropBacktest Inst.

Section C121.
  Context {F : Type} {NF : Num F}.

  (** Everything realised: all figures except the open profit and the equity. *)
  Definition same_realised (m m' : smetrics F) : Prop :=
    sm_net m' = sm_net m /\ sm_gross_profit m' = sm_gross_profit m /\ sm_gross_loss m' = sm_gross_loss m /\
    sm_closed m' = sm_closed m /\ sm_winning m' = sm_winning m /\ sm_losing m' = sm_losing m /\
    sm_long_net m' = sm_long_net m /\ sm_short_net m' = sm_short_net m.
  Lemma tallied_same ps m m' : tallied ps m -> tallied ps m' -> same_realised m m'.
  Proof. intros [] []. unfold same_realised. repeat split; congruence. Qed.

  (** ** Only the prices at which trades were entered and left matter *)
  (** A tick at which some trade was entered or left. *)
  Definition traded_at (ts : list (trade F)) (tick : nat) : Prop :=
    exists t, In t ts /\ (t_entry_tick t = Some tick \/ t_exit_tick t = Some tick).
  Definition in_book (ps : list (position F)) (tick : nat) : Prop :=
    exists p, In p ps /\ (fst (pos_in p) = tick \/ exists x, pos_out p = Some (tick, x)).
  Lemma in_book_traded ps tick : in_book ps tick <-> traded_at (map as_trade ps) tick.
  Proof.
    split.
    - intros (p & Hp & Q). exists (as_trade p). split; [apply in_map, Hp|]. cbn. destruct Q as [<- | (x & ->)]; [left | right]; reflexivity.
    - intros (t & Ht & Q). apply in_map_iff in Ht. destruct Ht as (p & <- & Hp). exists p. split; [exact Hp|]. cbn in Q. destruct Q as [Q|Q].
      + injection Q as <-. left. reflexivity.
      + destruct (pos_out p) as [[i x]|]; [|discriminate]. injection Q as <-. right. exists x. reflexivity.
  Qed.
  Lemma last_in {A} (l : list A) a : newest l = Some a -> In a l.
  Proof. unfold newest. apply nth_error_In. Qed.
  Lemma place_grows cfg ps o tick : in_book ps tick -> in_book (place cfg ps o) tick.
  Proof.
    intros (p & Hp & Q). unfold place. destruct (newest ps) as [l|] eqn:N.
    - destruct (pos_closed l) eqn:CL; [exists p; split; [apply in_or_app; left; exact Hp | exact Q]|].
      destruct (dir_eqb (pos_dir l) (snd o)); [exists p; split; assumption|].
      assert (X : in_book (removelast ps ++ [leave l o]) tick).
      { rewrite (newest_split _ _ N) in Hp. apply in_app_or in Hp. destruct Hp as [Hp | [<- | []]].
        - exists p. split; [apply in_or_app; left; exact Hp | exact Q].
        - exists (leave l o). split; [apply in_or_app; right; left; reflexivity|]. destruct o as [[t x] d]. cbn [leave pos_in pos_out].
          destruct Q as [Q | (y & Q)]; [left; exact Q|]. unfold pos_closed in CL. rewrite Q in CL. discriminate. }
      destruct (sc_continuous cfg); [|exact X]. destruct X as (r & Hr & QR). exists r. split; [apply in_or_app; left; exact Hr | exact QR].
    - exists p. split; [apply in_or_app; left; exact Hp | exact Q].
  Qed.
  (** An order that changes the book leaves its tick there. *)
  Lemma place_marks cfg ps t x d : place cfg ps (t, x, d) = ps /\ (forall y, place cfg ps (t, y, d) = ps) \/ in_book (place cfg ps (t, x, d)) t.
  Proof.
    unfold place. destruct (newest ps) as [l|] eqn:N.
    - destruct (pos_closed l) eqn:CL.
      { right. eexists. split; [apply in_or_app; right; left; reflexivity|]. left. reflexivity. }
      cbn [snd]. destruct (dir_eqb (pos_dir l) d); [left; split; [reflexivity | intros; reflexivity]|].
      right. assert (X : in_book (removelast ps ++ [leave l (t, x, d)]) t).
      { eexists. split; [apply in_or_app; right; left; reflexivity|]. right. exists x. reflexivity. }
      destruct (sc_continuous cfg); [|exact X]. destruct X as (r & Hr & QR). exists r. split; [apply in_or_app; left; exact Hr | exact QR].
    - right. eexists. split; [apply in_or_app; right; left; reflexivity|]. left. reflexivity.
  Qed.
  Lemma book_local cfg d d' i0 sigs :
    (forall tick, in_book (pos_at cfg d i0 sigs) tick -> quote (fills cfg d') tick = quote (fills cfg d) tick) ->
    pos_at cfg d' i0 sigs = pos_at cfg d i0 sigs.
  Proof.
    induction sigs as [|x sigs IH] using rev_ind; intros H; [unfold pos_at, orders; destruct (sc_on_close cfg); reflexivity|].
    rewrite !pos_at_snoc in *. unfold new_order, fills, order_at in *.
    assert (G : forall v v' dir, (forall tick, in_book (place cfg (pos_at cfg d i0 sigs) (i0 + length sigs, quote v (i0 + length sigs), dir)) tick -> quote v' tick = quote v tick) ->
      (forall tick, in_book (pos_at cfg d i0 sigs) tick -> quote v' tick = quote v tick) -> pos_at cfg d' i0 sigs = pos_at cfg d i0 sigs ->
      place cfg (pos_at cfg d' i0 sigs) (i0 + length sigs, quote v' (i0 + length sigs), dir) =
      place cfg (pos_at cfg d i0 sigs) (i0 + length sigs, quote v (i0 + length sigs), dir)).
    { intros v v' dir Q _ ->. destruct (place_marks cfg (pos_at cfg d i0 sigs) (i0 + length sigs) (quote v (i0 + length sigs)) dir) as [[E E'] | M].
      - rewrite E, E'. reflexivity.
      - rewrite (Q _ M). reflexivity. }
    destruct (sc_on_close cfg).
    - destruct x as [dir|]; [|apply IH, H].
      assert (H0 : forall tick, in_book (pos_at cfg d i0 sigs) tick -> quote (p_close d') tick = quote (p_close d) tick) by (intros tick Q; apply H, place_grows, Q).
      apply G; [exact H | exact H0 | apply IH, H0].
    - destruct (last sigs None) as [dir|]; [|apply IH, H].
      assert (H0 : forall tick, in_book (pos_at cfg d i0 sigs) tick -> quote (p_open d') tick = quote (p_open d) tick) by (intros tick Q; apply H, place_grows, Q).
      apply G; [exact H | exact H0 | apply IH, H0].
  Qed.

  (** The prices orders are filled at: closes with on_bar_close, else opens. *)
  Definition fill_column (cfg : sconfig F) (c : ctx F) : list (option F) :=
    if sc_on_close cfg then p_close (c_data c) else p_open (c_data c).
  Theorem C121_only_fill_prices (cfg : sconfig F) c c' sigs s s' : c_index c' = c_index c ->
    after cfg c sigs s -> after cfg c' sigs s' ->
    (forall tick, traded_at (s_trades s) tick -> nth_error (fill_column cfg c') tick = nth_error (fill_column cfg c) tick) ->
    s_trades s' = s_trades s /\ same_realised (s_metrics s) (s_metrics s').
  Proof.
    intros I A A' H. pose proof (after_tracks _ _ _ _ A) as T. pose proof (after_tracks _ _ _ _ A') as T'. rewrite I in T'.
    assert (E : pos_at cfg (c_data c') (c_index c) sigs = pos_at cfg (c_data c) (c_index c) sigs).
    { apply book_local. intros tick Q. apply in_book_traded in Q. rewrite <- (tr_trades _ _ _ _ _ T) in Q. unfold quote, fills.
      specialize (H tick Q). unfold fill_column in H. rewrite H. reflexivity. }
    split; [rewrite (tr_trades _ _ _ _ _ T), (tr_trades _ _ _ _ _ T'), E; reflexivity|].
    pose proof (tr_tally _ _ _ _ _ T) as X. pose proof (tr_tally _ _ _ _ _ T') as X'. rewrite E in X'. eapply tallied_same; eassumption.
  Qed.
  (** With the same last close as well, the open profit and the equity agree. *)
  Theorem C121_and_last_close (cfg : sconfig F) c c' sigs x s s' : c_index c' = c_index c ->
    after cfg c (sigs ++ [x]) s -> after cfg c' (sigs ++ [x]) s' ->
    (forall tick, traded_at (s_trades s) tick -> nth_error (fill_column cfg c') tick = nth_error (fill_column cfg c) tick) ->
    nth_error (p_close (c_data c')) (c_index c + length sigs) = nth_error (p_close (c_data c)) (c_index c + length sigs) ->
    s_trades s' = s_trades s /\ s_metrics s' = s_metrics s.
  Proof.
    intros I A A' H HC. destruct (C121_only_fill_prices cfg c c' _ s s' I A A' H) as [E R]. split; [exact E|].
    pose proof (after_tracks _ _ _ _ A) as T. pose proof (after_tracks _ _ _ _ A') as T'. rewrite I in T'.
    assert (NE : sigs ++ [x] <> []) by (destruct sigs; discriminate).
    assert (EP : pos_at cfg (c_data c') (c_index c) (sigs ++ [x]) = pos_at cfg (c_data c) (c_index c) (sigs ++ [x])).
    { apply book_local. intros tick Q. apply in_book_traded in Q. rewrite <- (tr_trades _ _ _ _ _ T) in Q. unfold quote, fills.
      specialize (H tick Q). unfold fill_column in H. rewrite H. reflexivity. }
    pose proof (tr_open _ _ _ _ _ T NE) as O. pose proof (tr_open _ _ _ _ _ T' NE) as O'. rewrite EP in O'.
    assert (Q : quote (p_close (c_data c')) (c_index c + length (sigs ++ [x]) - 1) = quote (p_close (c_data c)) (c_index c + length (sigs ++ [x]) - 1)).
    { rewrite app_length. cbn [length]. replace (c_index c + (length sigs + 1) - 1) with (c_index c + length sigs) by lia. unfold quote. rewrite HC. reflexivity. }
    rewrite Q, <- O in O'.
    pose proof (tr_equity _ _ _ _ _ T) as EQ. pose proof (tr_equity _ _ _ _ _ T') as EQ'.
    assert (SH : forall m : option direction -> F, True) by auto. clear SH.
    destruct (sigs ++ [x]) as [|y ys]; [congruence|].
    destruct R as (R1 & R2 & R3 & R4 & R5 & R6 & R7 & R8). rewrite R1, O', <- EQ in EQ'.
    destruct (s_metrics s), (s_metrics s'); cbn in *. congruence.
  Qed.

  (** ** Filling at the close, or at the next open when it is the same price *)
  Definition later (t : trade F) : trade F :=
    mkTrade (t_dir t) (t_closed t) (option_map S (t_entry_tick t)) (t_entry_price t)
      (option_map S (t_exit_tick t)) (t_exit_price t) (t_fill t) (t_pnl t).
  Definition pos_later (p : position F) : position F :=
    Pos (pos_dir p) (S (fst (pos_in p)), snd (pos_in p)) (pos_size p) (option_map (fun o => (S (fst o), snd o)) (pos_out p)).
  Definition at_close (cfg : sconfig F) : sconfig F := mkSConfig true (sc_continuous cfg) (sc_capital cfg) (sc_with_equity cfg).
  Definition at_next_open (cfg : sconfig F) : sconfig F := mkSConfig false (sc_continuous cfg) (sc_capital cfg) (sc_with_equity cfg).
  Lemma later_closed p : pos_closed (pos_later p) = pos_closed p.
  Proof. destruct p as [d i z [o|]]; reflexivity. Qed.
  Lemma later_realised p : realised (pos_later p) = realised p.
  Proof. destruct p as [d i z [[t x]|]]; reflexivity. Qed.
  Lemma later_profits ps : profits (map pos_later ps) = profits ps.
  Proof.
    unfold profits. induction ps as [|p ps IH]; [reflexivity|]. cbn [map filter]. rewrite later_closed.
    destruct (pos_closed p); cbn [map]; rewrite ?later_realised, IH; reflexivity.
  Qed.
  Lemma later_side d ps : side d (map pos_later ps) = side d ps.
  Proof.
    unfold side. induction ps as [|p ps IH]; [reflexivity|]. cbn [map filter]. rewrite later_closed.
    change (pos_dir (pos_later p)) with (pos_dir p).
    match goal with |- context [if ?b then _ else _] => destruct b end; cbn [map]; rewrite ?later_realised, IH; reflexivity.
  Qed.
  Lemma later_book cfg os : map pos_later (book (at_close cfg) os) = book (at_next_open cfg) (map (fun o => (S (fst (fst o)), snd (fst o), snd o)) os).
  Proof.
    apply (book_sim (at_close cfg) (at_next_open cfg) pos_later (fun o => (S (fst (fst o)), snd (fst o), snd o)) (fun _ => True) (fun _ => True)); try (intros; exact I).
    - reflexivity.
    - intros p. apply later_closed.
    - intros p o. reflexivity.
    - intros p [[t x] d] _ _. reflexivity.
    - intros ps [[t x] d] _ _. cbn [enter fst snd]. unfold pos_later. cbn [pos_dir pos_in pos_size pos_out fst snd option_map].
      f_equal. unfold size_for, at_close, at_next_open. cbn [sc_with_equity sc_capital]. rewrite later_profits. reflexivity.
    - apply Forall_forall. intros; exact I.
  Qed.
  Lemma later_as_trade p : as_trade (pos_later p) = later (as_trade p).
  Proof.
    unfold as_trade, later. cbn [t_dir t_closed t_entry_tick t_entry_price t_exit_tick t_exit_price t_fill t_pnl].
    rewrite later_closed, later_realised. destruct p as [d [i z] f [[t x]|]]; reflexivity.
  Qed.
  Lemma later_open ps x : open_gain (map pos_later ps) x = open_gain ps x.
  Proof. unfold open_gain. rewrite newest_map. destruct (newest ps) as [p|]; cbn [option_map]; [|reflexivity]. rewrite later_closed. reflexivity. Qed.
  Lemma tallied_later ps m m' : tallied ps m -> tallied (map pos_later ps) m' -> same_realised m m'.
  Proof.
    intros [] H. destruct H. rewrite later_profits, ?later_side in *. unfold same_realised. repeat split; congruence.
  Qed.
  (** When every bar opens at the close before it, both fill modes make the
      same trades, one bar apart, and report the same figures (after a bar
      without a signal, which the later mode has not acted upon yet). *)
  Theorem C121_fill_modes (cfg : sconfig F) c sigs s s' :
    (forall k, k < length sigs -> nth_error (p_open (c_data c)) (c_index c + k + 1) = nth_error (p_close (c_data c)) (c_index c + k)) ->
    after (at_close cfg) c (sigs ++ [None]) s -> after (at_next_open cfg) c (sigs ++ [None]) s' ->
    s_trades s' = map later (s_trades s) /\ s_metrics s' = s_metrics s.
  Proof.
    intros H A A'. pose proof (after_tracks _ _ _ _ A) as T. pose proof (after_tracks _ _ _ _ A') as T'.
    assert (E : pos_at (at_next_open cfg) (c_data c) (c_index c) (sigs ++ [None]) = map pos_later (pos_at (at_close cfg) (c_data c) (c_index c) (sigs ++ [None]))).
    { unfold pos_at. rewrite later_book. f_equal. unfold orders. cbn [at_close at_next_open sc_on_close].
      rewrite app_length. cbn [length]. rewrite Nat.add_sub, Nat.add_1_r, seq_S, flat_map_snoc. cbn [Nat.add].
      rewrite app_nth2, Nat.sub_diag by lia. cbn [nth order_at]. rewrite app_nil_r.
      assert (G : forall n, n <= length sigs ->
        flat_map (fun k => order_at (p_open (c_data c)) (c_index c + k + 1) (nth k (sigs ++ [None]) None)) (seq 0 n) =
        map (fun o : order => (S (fst (fst o)), snd (fst o), snd o)) (flat_map (fun k => order_at (p_close (c_data c)) (c_index c + k) (nth k (sigs ++ [None]) None)) (seq 0 n))).
      { induction n as [|n IH]; intros L; [reflexivity|]. rewrite !seq_S, !flat_map_snoc, map_app, IH by lia. f_equal. cbn [Nat.add].
        unfold order_at. destruct (nth n (sigs ++ [None]) None) as [d|]; [|reflexivity]. cbn [map fst snd]. unfold quote.
        rewrite H by lia. rewrite Nat.add_1_r. reflexivity. }
      apply G. lia. }
    split.
    - rewrite (tr_trades _ _ _ _ _ T), (tr_trades _ _ _ _ _ T'), E, !map_map. apply map_ext. intros p. apply later_as_trade.
    - assert (NE : sigs ++ [None] <> []) by (destruct sigs; discriminate).
      pose proof (tr_tally _ _ _ _ _ T) as X. pose proof (tr_tally _ _ _ _ _ T') as X'. rewrite E in X'. pose proof (tallied_later _ _ _ X X') as R.
      pose proof (tr_open _ _ _ _ _ T NE) as O. pose proof (tr_open _ _ _ _ _ T' NE) as O'. rewrite E, later_open, <- O in O'.
      pose proof (tr_equity _ _ _ _ _ T) as EQ. pose proof (tr_equity _ _ _ _ _ T') as EQ'.
      destruct (sigs ++ [None]) as [|y ys]; [congruence|]. cbn [at_close at_next_open sc_capital] in EQ, EQ'.
      destruct R as (R1 & R2 & R3 & R4 & R5 & R6 & R7 & R8). rewrite R1, O', <- EQ in EQ'.
      destruct (s_metrics s), (s_metrics s'); cbn in *. congruence.
  Qed.

  (** ** Starting later *)
  Lemma orders_wait cfg d i0 k sigs : orders cfg d i0 (repeat None k ++ sigs) = orders cfg d (i0 + k) sigs.
  Proof.
    revert i0. induction k as [|k IH]; intros i0; [cbn; rewrite Nat.add_0_r; reflexivity|].
    replace (i0 + S k) with (S i0 + k) by lia. rewrite <- IH. cbn [repeat app]. generalize (repeat None k ++ sigs) as xs. intros xs.
    induction xs as [|x xs IHx] using rev_ind.
    - unfold orders. destruct (sc_on_close cfg); reflexivity.
    - change (None :: xs ++ [x]) with ((None :: xs) ++ [x]). rewrite !orders_snoc, IHx. f_equal.
      unfold new_order. cbn [length]. replace (i0 + S (length xs)) with (S i0 + length xs) by lia.
      destruct (sc_on_close cfg); [reflexivity|]. f_equal. destruct xs; reflexivity.
  Qed.
  (** Bars without a signal before the first one change nothing: the strategy
      started [k] bars later makes the same trades and reports the same. *)
  Theorem C121_waiting (cfg : sconfig F) c k sigs x s s' :
    after cfg c (repeat None k ++ sigs ++ [x]) s -> after cfg (ctx_at c k) (sigs ++ [x]) s' ->
    s_trades s' = s_trades s /\ s_metrics s' = s_metrics s.
  Proof.
    intros A A'. pose proof (after_tracks _ _ _ _ A) as T. pose proof (after_tracks _ _ _ _ A') as T'.
    rewrite ctx_at_index in T'. change (c_data (ctx_at c k)) with (c_data c) in T'.
    assert (E : pos_at cfg (c_data c) (c_index c) (repeat None k ++ sigs ++ [x]) = pos_at cfg (c_data c) (c_index c + k) (sigs ++ [x])).
    { unfold pos_at. rewrite orders_wait. reflexivity. }
    split; [rewrite (tr_trades _ _ _ _ _ T), (tr_trades _ _ _ _ _ T'), E; reflexivity|].
    assert (NE' : sigs ++ [x] <> []) by (destruct sigs; discriminate).
    assert (NE : repeat None k ++ sigs ++ [x] <> []) by (intros Q; apply app_eq_nil in Q; tauto).
    pose proof (tr_tally _ _ _ _ _ T) as X. pose proof (tr_tally _ _ _ _ _ T') as X'. rewrite E in X. pose proof (tallied_same _ _ _ X X') as R.
    pose proof (tr_open _ _ _ _ _ T NE) as O. pose proof (tr_open _ _ _ _ _ T' NE') as O'.
    rewrite E, app_length, repeat_length, Nat.add_assoc in O. rewrite <- O in O'.
    pose proof (tr_equity _ _ _ _ _ T) as EQ. pose proof (tr_equity _ _ _ _ _ T') as EQ'.
    destruct (repeat None k ++ sigs ++ [x]) as [|y ys]; [congruence|]. destruct (sigs ++ [x]) as [|z zs]; [congruence|].
    destruct R as (R1 & R2 & R3 & R4 & R5 & R6 & R7 & R8). rewrite R1, O', <- EQ in EQ'.
    destruct (s_metrics s), (s_metrics s'); cbn in *. congruence.
  Qed.
End C121.

(** ** The hypotheses are met *)
(** Five f64 bars, each opening at the close before it; the signals trade both ways. *)
Definition data121 (o x : list Z) : provider f64 :=
  let p := map (fun z => Some (fZ (F := f64) z)) in mkProvider (p o) (p o) (p o) (p x) (p x) [] 0 4.
Definition ctx121 (o x : list Z) : ctx f64 := mkCtx (data121 o x) 0 4 5 0 true.
Definition sig121 : list (option direction) := [Some Long; Some Long; Some Short; None].
Definition cfg121 (on_close cont eq : bool) : sconfig f64 := mkSConfig on_close cont (fZ (F := f64) 100) eq.
Lemma ctx121_priced a b d e f g h i j k n : n <= 5 -> priced (ctx121 [a; b; d; e; f] [g; h; i; j; k]) n.
Proof. intros H m Hm. do 5 (destruct m as [|m]; [split; eexists; reflexivity|]). lia. Qed.
Example C121_modes_ex cont eq :
  (forall k, k < length sig121 -> nth_error (p_open (c_data (ctx121 [10; 11; 13; 8; 6]%Z [11; 13; 8; 6; 10]%Z))) (0 + k + 1) =
                                  nth_error (p_close (c_data (ctx121 [10; 11; 13; 8; 6]%Z [11; 13; 8; 6; 10]%Z))) (0 + k)) /\
  exists s, after (at_next_open (cfg121 false cont eq)) (ctx121 [10; 11; 13; 8; 6]%Z [11; 13; 8; 6; 10]%Z) (sig121 ++ [None]) s /\
    map t_dir (s_trades s) = (if cont then [Long; Short] else [Long]) /\ map t_entry_tick (s_trades s) = (if cont then [Some 1; Some 3] else [Some 1]).
Proof.
  split.
  - intros k Hk. do 4 (destruct k as [|k]; [reflexivity|]). cbn in Hk. lia.
  - destruct (C28_runs (at_next_open (cfg121 false cont eq)) (ctx121 [10; 11; 13; 8; 6]%Z [11; 13; 8; 6; 10]%Z) (sig121 ++ [None])) as (s & A);
      [apply ctx121_priced; cbn; lia|]. exists s. split; [exact A|].
    rewrite (tr_trades _ _ _ _ _ (after_tracks _ _ _ _ A)). destruct cont, eq; split; reflexivity.
Qed.
(** Changing the prices of bars at which nothing was filled: here all but the
    opens of the second and the fourth bar. *)
Example C121_only_ex eq : exists s s',
  after (cfg121 false true eq) (ctx121 [10; 12; 9; 7; 8]%Z [11; 13; 8; 6; 10]%Z) (sig121 ++ [None]) s /\
  after (cfg121 false true eq) (ctx121 [20; 12; 3; 7; 1]%Z [15; 11; 2; 9; 4]%Z) (sig121 ++ [None]) s' /\
  length (s_trades s) = 2 /\ (forall tick, traded_at (s_trades s) tick -> tick = 1 \/ tick = 3) /\ s_trades s' = s_trades s.
Proof.
  destruct (C28_runs (cfg121 false true eq) (ctx121 [10; 12; 9; 7; 8]%Z [11; 13; 8; 6; 10]%Z) (sig121 ++ [None])) as (s & A); [apply ctx121_priced; cbn; lia|].
  destruct (C28_runs (cfg121 false true eq) (ctx121 [20; 12; 3; 7; 1]%Z [15; 11; 2; 9; 4]%Z) (sig121 ++ [None])) as (s' & A'); [apply ctx121_priced; cbn; lia|].
  exists s, s'. split; [exact A|]. split; [exact A'|].
  assert (L : length (s_trades s) = 2). { rewrite (tr_trades _ _ _ _ _ (after_tracks _ _ _ _ A)). destruct eq; reflexivity. }
  assert (M : forall tick, traded_at (s_trades s) tick -> tick = 1 \/ tick = 3).
  { intros tick (t & Ht & Q). rewrite (tr_trades _ _ _ _ _ (after_tracks _ _ _ _ A)) in Ht.
    assert (X : forall t, In t (map as_trade (pos_at (cfg121 false true eq) (data121 [10; 12; 9; 7; 8]%Z [11; 13; 8; 6; 10]%Z) 0 (sig121 ++ [None]))) ->
      (t_entry_tick t = Some 1 /\ t_exit_tick t = Some 3) \/ (t_entry_tick t = Some 3 /\ t_exit_tick t = None)).
    { intros u Hu. destruct eq; (destruct Hu as [<- | [<- | []]]; [left | right]; split; reflexivity). }
    destruct (X t Ht) as [[E1 E2] | [E1 E2]]; rewrite E1, E2 in Q; destruct Q as [Q|Q]; try discriminate; injection Q as <-; auto. }
  split; [exact L|]. split; [exact M|].
  apply (C121_only_fill_prices (cfg121 false true eq) (ctx121 [10; 12; 9; 7; 8]%Z [11; 13; 8; 6; 10]%Z) (ctx121 [20; 12; 3; 7; 1]%Z [15; 11; 2; 9; 4]%Z) (sig121 ++ [None])); try assumption; [reflexivity|].
  intros tick Q. destruct (M tick Q) as [-> | ->]; reflexivity.
Qed.
