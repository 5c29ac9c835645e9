(** * PropStrategy: properties C28-C35, the strategy engine. *)
From Verif Require Export PStrategy2 Exact Inst.

Section Statements.
  Context {F : Type} {NF : Num F}.
  (** [s] is the strategy's state after being given the signals [sigs], one
      per bar, on the context [c]. *)
  Definition after (cfg : sconfig F) (c : ctx F) (sigs : list (option direction)) (s : strategy F) : Prop :=
    exists os, run_st strategy_step c (strategy_new cfg) sigs = Ok (s, os).
  (** Profit of a trade: (price - entry) * size * (+1 long, -1 short). *)
  Definition profit_at (t : trade F) (e f x : F) : F := ((x - e) * f * sign (t_dir t))%num.
  (** The profits of the closed trades, oldest first. *)
  Definition closed_pnls (ts : list (trade F)) : list F := map t_pnl (filter t_closed ts).
  (** The signal that is executed at the bar where [x] is given after [sigs]. *)
  Definition executed (cfg : sconfig F) (sigs : list (option direction)) (x : option direction) : option direction :=
    if sc_on_close cfg then x else last sigs None.
  (** The price column it is executed at. *)
  Definition fill_column (cfg : sconfig F) (c : ctx F) : list (option F) :=
    if sc_on_close cfg then p_close (c_data c) else p_open (c_data c).

  Lemma after_tracks cfg c sigs s : after cfg c sigs s -> tracks cfg (c_data c) (c_index c) sigs s.
  Proof. intros [os R]. eapply run_tracks; exact R. Qed.
  Lemma nth_trades cfg c sigs s i t : after cfg c sigs s -> nth_error (s_trades s) i = Some t ->
    exists p, nth_error (pos_at cfg (c_data c) (c_index c) sigs) i = Some p /\ t = as_trade p.
  Proof.
    intros A H. rewrite (tr_trades _ _ _ _ _ (after_tracks _ _ _ _ A)), nth_error_map in H.
    destruct (nth_error (pos_at cfg (c_data c) (c_index c) sigs) i) as [p|]; [|discriminate].
    cbn in H. injection H as <-. exists p; split; reflexivity.
  Qed.
End Statements.

(** ** C28 *)
Section C28.
  Context {F : Type} {NF : Num F}.
  Local Open Scope num_scope.

  (** Any priced history goes through without panic. *)
  Theorem C28_runs (cfg : sconfig F) c sigs : priced c (length sigs) -> exists s, after cfg c sigs s.
  Proof. intros P. destruct (run_total cfg c sigs P) as (s & os & R). exists s, os. exact R. Qed.

  Theorem C28_trades (cfg : sconfig F) c sigs s : after cfg c sigs s ->
    forall i t, nth_error (s_trades s) i = Some t ->
    exists et ep size,
      t_entry_tick t = Some et /\ t_entry_price t = Some ep /\ t_fill t = Some size /\
      (c_index c <= et < c_index c + length sigs)%nat /\
      (t_closed t = true -> exists xt xp,
         t_exit_tick t = Some xt /\ t_exit_price t = Some xp /\ (et < xt < c_index c + length sigs)%nat /\
         t_pnl t = profit_at t ep size xp) /\
      (t_closed t = false ->
         t_exit_tick t = None /\ t_exit_price t = None /\ S i = length (s_trades s)).
  Proof.
    intros A i t H. destruct (nth_trades _ _ _ _ _ _ A H) as (p & Hp & ->).
    destruct (pos_at_sane cfg (c_data c) (c_index c) sigs) as [[S1 _ _] _].
    destruct (S1 i p Hp) as [B O].
    exists (fst (pos_in p)), (snd (pos_in p)), (pos_size p). unfold as_trade; cbn [t_entry_tick t_entry_price t_fill t_closed t_exit_tick t_exit_price t_pnl].
    unfold pos_closed, realised. repeat (split; [reflexivity|]). split; [exact B|].
    destruct (pos_out p) as [[x q]|] eqn:E; cbn [is_some option_map fst snd].
    - split; [|discriminate]. intros _. exists x, q. repeat split; try lia.
    - split; [discriminate|]. intros _. rewrite (tr_trades _ _ _ _ _ (after_tracks _ _ _ _ A)), map_length. repeat split. exact O.
  Qed.

  (** Consecutive trades do not overlap. *)
  Theorem C28_no_overlap (cfg : sconfig F) c sigs s : after cfg c sigs s ->
    forall i t1 t2, nth_error (s_trades s) i = Some t1 -> nth_error (s_trades s) (S i) = Some t2 ->
    t_closed t1 = true /\
    exists x e, t_exit_tick t1 = Some x /\ t_entry_tick t2 = Some e /\ (x <= e)%nat.
  Proof.
    intros A i t1 t2 H1 H2.
    destruct (nth_trades _ _ _ _ _ _ A H1) as (p1 & Hp1 & ->).
    destruct (nth_trades _ _ _ _ _ _ A H2) as (p2 & Hp2 & ->).
    destruct (pos_at_sane cfg (c_data c) (c_index c) sigs) as [[_ S2 _] _].
    destruct (S2 i p1 p2 Hp1 Hp2) as (x & q & E & K).
    unfold as_trade; cbn. unfold pos_closed. rewrite E. split; [reflexivity|].
    exists x, (fst (pos_in p2)). repeat split. destruct (sc_continuous cfg); [destruct K as [K _]; rewrite K; cbn|]; lia.
  Qed.

  (** A later step never removes a trade, never changes a closed one, and of an
      open one keeps direction, entry and size. *)
  Theorem C28_history_kept (cfg : sconfig F) c xs ys s1 s2 : after cfg c xs s1 -> after cfg c (xs ++ ys) s2 ->
    forall i t, nth_error (s_trades s1) i = Some t ->
    exists t', nth_error (s_trades s2) i = Some t' /\
      (t_closed t = true -> t' = t) /\
      t_dir t' = t_dir t /\ t_entry_tick t' = t_entry_tick t /\ t_entry_price t' = t_entry_price t /\ t_fill t' = t_fill t.
  Proof.
    intros A1 A2 i t H. destruct (nth_trades _ _ _ _ _ _ A1 H) as (p & Hp & ->).
    destruct (pos_at_app_continues cfg _ _ xs ys i p Hp) as (p' & Hp' & (D & I & Z & K)).
    exists (as_trade p'). rewrite (tr_trades _ _ _ _ _ (after_tracks _ _ _ _ A2)), nth_error_map, Hp'. split; [reflexivity|].
    unfold as_trade at 1 2; cbn [t_closed t_dir]. split; [|cbn; rewrite D, I, Z; auto].
    intros C. specialize (K C). subst p'. reflexivity.
  Qed.
End C28.

(** ** C29 *)
Section C29.
  Context {F : Type} {NF : Num F}.
  (** The trades are the book obtained by placing the orders one by one
      ([orders], [place]: [SpecStrategy.v]). *)
  Theorem C29_orders (cfg : sconfig F) c sigs s : after cfg c sigs s ->
    s_trades s = map as_trade (book cfg (orders cfg (c_data c) (c_index c) sigs)).
  Proof. intros A. apply (tr_trades _ _ _ _ _ (after_tracks _ _ _ _ A)). Qed.

  (** With on_bar_close=false the signal of the last bar has no effect yet... *)
  Theorem C29_last_signal (cfg : sconfig F) c sigs x y s1 s2 : sc_on_close cfg = false ->
    after cfg c (sigs ++ [x]) s1 -> after cfg c (sigs ++ [y]) s2 -> s_trades s1 = s_trades s2.
  Proof.
    intros OC A1 A2. rewrite (C29_orders _ _ _ _ A1), (C29_orders _ _ _ _ A2), !orders_snoc.
    unfold new_order. rewrite OC. reflexivity.
  Qed.
  (** ... and is the order executed at the open of the next bar, whatever is
      signalled there; with on_bar_close=true a signal is the order executed
      at the close of its own bar. *)
  Theorem C29_timing (cfg : sconfig F) d i0 sigs x :
    orders cfg d i0 (sigs ++ [x]) = orders cfg d i0 sigs ++
    match executed cfg sigs x with
    | Some dir =>
        let tick := (i0 + length sigs)%nat in
        [(tick, quote (if sc_on_close cfg then p_close d else p_open d) tick, dir)]
    | None => []
    end.
  Proof.
    rewrite orders_snoc. unfold new_order, executed, order_at. destruct (sc_on_close cfg); reflexivity.
  Qed.
End C29.

(** ** C30 *)
Section C30.
  Context {F : Type} {NF : Num F} {OF : OrdNum F}.
  Local Open Scope num_scope.

  Lemma closed_pnls_profits (ps : list (position F)) : closed_pnls (map as_trade ps) = profits ps.
  Proof.
    unfold closed_pnls, profits. induction ps as [|p ps IH]; [reflexivity|]. cbn [map filter].
    change (t_closed (as_trade p)) with (pos_closed p). destruct (pos_closed p); cbn [map]; rewrite IH; reflexivity.
  Qed.
  Lemma side_trades d (ps : list (position F)) :
    map t_pnl (filter (fun t => t_closed t && dir_eqb (t_dir t) d) (map as_trade ps)) = side d ps.
  Proof.
    unfold side. induction ps as [|p ps IH]; [reflexivity|]. cbn [map filter].
    change (t_closed (as_trade p)) with (pos_closed p). change (t_dir (as_trade p)) with (pos_dir p).
    destruct (pos_closed p && dir_eqb (pos_dir p) d); cbn [map]; rewrite IH; reflexivity.
  Qed.
  Lemma lost_lt (x : F) : lost x = (x <? fZ 0).
  Proof. unfold lost. destruct (fZ 0 <? x) eqn:E; cbn; [symmetry; apply lt_asym; exact E|reflexivity]. Qed.

  Theorem C30_totals (cfg : sconfig F) c sigs s : after cfg c sigs s ->
    let ts := s_trades s in let m := s_metrics s in
    let pnls := closed_pnls ts in
    sm_net m = total pnls /\
    sm_closed m = length pnls /\
    sm_winning m = length (filter (fun x => fZ 0 <? x) pnls) /\
    sm_losing m = length (filter (fun x => x <? fZ 0) pnls) /\
    sm_gross_profit m = total (filter (fun x => fZ 0 <? x) pnls) /\
    sm_gross_loss m = total (map fabs (filter (fun x => x <? fZ 0) pnls)) /\
    sm_long_net m = total (map t_pnl (filter (fun t => t_closed t && dir_eqb (t_dir t) Long) ts)) /\
    sm_short_net m = total (map t_pnl (filter (fun t => t_closed t && dir_eqb (t_dir t) Short) ts)).
  Proof.
    intros A. cbn zeta. pose proof (after_tracks _ _ _ _ A) as T. rewrite (tr_trades _ _ _ _ _ T).
    destruct (tr_tally _ _ _ _ _ T). rewrite closed_pnls_profits, !side_trades.
    assert (E : filter (fun x : F => x <? fZ 0) (profits (pos_at cfg (c_data c) (c_index c) sigs)) =
                filter lost (profits (pos_at cfg (c_data c) (c_index c) sigs))).
    { apply filter_ext. intros x. symmetry. apply lost_lt. }
    rewrite E. repeat split; assumption.
  Qed.
End C30.

(** Finite prices and capital give finite profits. *)
Section Finite.
  Open Scope R_scope.
  Definition finite (x : xr) : Prop := exists r, x = Fin r.
  Definition real_prices (c : ctx xr) : Prop :=
    (forall x, In (Some x) (p_open (c_data c)) -> finite x) /\ (forall x, In (Some x) (p_close (c_data c)) -> finite x).
  Definition fin_pos (p : position xr) : Prop :=
    finite (snd (pos_in p)) /\ finite (pos_size p) /\ match pos_out p with Some (_, x) => finite x | None => True end.

  Lemma fin_total l : Forall finite l -> exists r, total l = Fin r /\ exists rs, l = map Fin rs /\ r = Rsum rs.
  Proof.
    intros H. assert (E : exists rs, l = map Fin rs).
    { induction H as [|x l [r ->] _ [rs ->]]; [exists []; reflexivity|exists (r :: rs); reflexivity]. }
    destruct E as [rs ->]. exists (Rsum rs). split; [|exists rs; split; reflexivity].
    change (total (map Fin rs)) with (fsum (map Fin rs)). apply fin_sum.
  Qed.
  Lemma fin_gain p x : fin_pos p -> finite x -> finite (gain p x).
  Proof.
    intros ([a A] & [b B] & _) [y ->]. unfold gain. rewrite A, B.
    destruct (pos_dir p); cbn; eexists; reflexivity.
  Qed.
  Lemma fin_realised p : fin_pos p -> finite (realised p).
  Proof.
    intros H. unfold realised. destruct (pos_out p) as [[t x]|] eqn:E; [|eexists; reflexivity].
    apply fin_gain; [exact H|]. destruct H as (_ & _ & H). rewrite E in H. exact H.
  Qed.
  Lemma fin_profits ps : Forall fin_pos ps -> Forall finite (profits ps).
  Proof.
    intros H. unfold profits. apply Forall_map. apply Forall_forall. intros p Hp. apply filter_In in Hp.
    apply fin_realised. rewrite Forall_forall in H. apply H, Hp.
  Qed.
  Lemma fin_size cfg ps x : finite (sc_capital cfg) -> Forall fin_pos ps -> finite x -> finite (size_for cfg ps x).
  Proof.
    intros [k K] P [y ->]. unfold size_for. destruct (sc_with_equity cfg); [|eexists; reflexivity].
    destruct (fin_total _ (fin_profits _ P)) as (r & -> & _). rewrite K, fin_Z, !fin_add, !fin_le.
    destruct (Rleb_spec (k + r + 0) 0); cbn [orb]; [eexists; reflexivity|].
    destruct (Rleb_spec y 0); [eexists; reflexivity|]. rewrite fin_div by lra. eexists; reflexivity.
  Qed.
  Lemma fin_quote v i : (forall x, In (Some x) v -> finite x) -> finite (quote v i).
  Proof.
    intros H. unfold quote. destruct (nth_error v i) as [[x|]|] eqn:E; try (eexists; reflexivity).
    apply H. eapply nth_error_In; exact E.
  Qed.
  Lemma fin_place cfg ps o : finite (sc_capital cfg) -> Forall fin_pos ps -> finite (oprice o) -> Forall fin_pos (place cfg ps o).
  Proof.
    intros K P O.
    assert (EN : forall l, Forall fin_pos l -> fin_pos (enter cfg l o)).
    { intros l Pl. unfold fin_pos. rewrite enter_in, enter_size, enter_out. cbn. split; [exact O|]. split; [|exact I].
      apply fin_size; assumption. }
    assert (LV : forall p, fin_pos p -> fin_pos (leave p o)).
    { intros p (A & B & _). unfold fin_pos. rewrite leave_in, leave_size, leave_out. auto. }
    destruct (place_cases cfg ps o) as [(-> & _)|(old & p & -> & CL & H)].
    - apply Forall_app; split; [exact P|]. constructor; [apply EN; exact P|constructor].
    - apply Forall_app in P. destruct P as [P1 P2]. inversion P2 as [|? ? Pp _]; subst.
      assert (PL : Forall fin_pos (old ++ [leave p o])).
      { apply Forall_app; split; [exact P1|]. constructor; [apply LV; exact Pp|constructor]. }
      destruct H as [(_ & -> & _)|(_ & _ & [(_ & -> & _)|(_ & -> & _)])].
      + apply Forall_app; split; assumption.
      + rewrite app_assoc. apply Forall_app; split; [exact PL|]. constructor; [apply EN; exact PL|constructor].
      + exact PL.
  Qed.
  Lemma fin_pos_at cfg c sigs : finite (sc_capital cfg) -> real_prices c -> Forall fin_pos (pos_at cfg (c_data c) (c_index c) sigs).
  Proof.
    intros K [P1 P2]. induction sigs as [|x sigs IH] using rev_ind.
    - unfold pos_at, orders. destruct (sc_on_close cfg); constructor.
    - rewrite pos_at_snoc. destruct (new_order cfg (c_data c) (c_index c) sigs x) as [|o os] eqn:E; [exact IH|].
      apply fin_place; auto. unfold new_order, order_at in E.
      destruct (sc_on_close cfg); [destruct x|destruct (last sigs None)]; inversion E; apply fin_quote; assumption.
  Qed.

  (** Real-number reading of a finite value. *)
  Definition real (x : xr) : R := match x with Fin r => r | _ => 0 end.

  Theorem C30_exact (cfg : sconfig xr) c sigs s : finite (sc_capital cfg) -> real_prices c -> after cfg c sigs s ->
    let m := s_metrics s in
    exists gp gl ln sn, sm_gross_profit m = Fin gp /\ sm_gross_loss m = Fin gl /\ sm_long_net m = Fin ln /\ sm_short_net m = Fin sn /\
      sm_net m = Fin (gp - gl) /\ sm_net m = Fin (ln + sn) /\ 0 <= gp /\ 0 <= gl.
  Proof.
    intros K RP A. cbn zeta. pose proof (after_tracks _ _ _ _ A) as T. destruct (tr_tally _ _ _ _ _ T).
    set (ps := pos_at cfg (c_data c) (c_index c) sigs) in *.
    assert (P : Forall fin_pos ps) by (apply fin_pos_at; assumption).
    rewrite ta_gp, ta_gl, ta_long, ta_short, ta_net.
    exists (Rsum (filter (fun x => Rltb 0 x) (map real (profits ps)))),
           (Rsum (map Rabs (filter (fun x => negb (Rltb 0 x) && Rltb x 0) (map real (profits ps))))),
           (Rsum (map real (side Long ps))), (Rsum (map real (side Short ps))).
    pose proof (fin_profits _ P) as FP.
    assert (FS : forall d, Forall finite (side d ps)).
    { intros d. unfold side. apply Forall_map, Forall_forall. intros p Hp. apply filter_In in Hp.
      apply fin_realised. rewrite Forall_forall in P. apply P, Hp. }
    assert (LF : forall l, Forall finite l -> total l = Fin (Rsum (map real l))).
    { intros l Hl. destruct (fin_total _ Hl) as (r & -> & rs & -> & ->). f_equal. f_equal. rewrite map_map. symmetry; apply map_id. }
    assert (FW : forall l, Forall finite l -> filter won l = map Fin (filter (fun x => Rltb 0 x) (map real l))).
    { intros l Hl; induction Hl as [|x l [r ->] _ IH]; [reflexivity|]. cbn [filter map real]. rewrite IH.
      unfold won at 1. rewrite fin_Z, fin_lt. destruct (Rltb 0 r); reflexivity. }
    assert (FL : forall l, Forall finite l -> filter lost l = map Fin (filter (fun x => negb (Rltb 0 x) && Rltb x 0) (map real l))).
    { intros l Hl; induction Hl as [|x l [r ->] _ IH]; [reflexivity|]. cbn [filter map real]. rewrite IH.
      unfold lost at 1. rewrite fin_Z, !fin_lt. destruct (negb (Rltb 0 r) && Rltb r 0); reflexivity. }
    assert (TS : forall rs, total (map Fin rs) = Fin (Rsum rs)) by (intros rs; apply fin_sum).
    rewrite FW, FL by exact FP. rewrite !TS. rewrite map_map.
    replace (map (fun x => fabs (Fin x)) (filter (fun x => negb (Rltb 0 x) && Rltb x 0) (map real (profits ps))))
      with (map Fin (map Rabs (filter (fun x => negb (Rltb 0 x) && Rltb x 0) (map real (profits ps))))) by (rewrite map_map; reflexivity).
    rewrite TS. rewrite !LF by (apply FS || exact FP).
    split; [reflexivity|]. split; [reflexivity|]. split; [reflexivity|]. split; [reflexivity|].
    split; [|split; [|split]].
    - f_equal. induction (map real (profits ps)) as [|x l IH]; [cbn; lra|].
      cbn [Rsum filter]. rewrite IH. destruct (Rltb_spec 0 x); cbn [negb andb Rsum map]; [lra|].
      destruct (Rltb_spec x 0); cbn [Rsum map]; [|lra]. rewrite Rabs_left by lra. lra.
    - f_equal. unfold profits, side. clear. induction ps as [|p ps IH]; [cbn; lra|]. cbn [filter].
      destruct (pos_closed p); cbn [andb]; [|exact IH].
      destruct (pos_dir p); cbn [dir_eqb map Rsum]; rewrite IH; lra.
    - induction (map real (profits ps)) as [|x l IH]; [cbn; lra|].
      cbn [filter]. destruct (Rltb_spec 0 x); cbn [Rsum]; lra.
    - induction (map real (profits ps)) as [|x l IH]; [cbn; lra|].
      cbn [filter]. destruct (negb (Rltb 0 x) && Rltb x 0); cbn [Rsum map]; [|exact IH]. pose proof (Rabs_pos x). lra.
  Qed.
End Finite.

(** ** C31 *)
Section C31.
  Context {F : Type} {NF : Num F}.
  Local Open Scope num_scope.
  Theorem C31_equity (cfg : sconfig F) c sigs x s : after cfg c (sigs ++ [x]) s ->
    let m := s_metrics s in
    sm_equity m = sc_capital cfg + sm_net m + sm_open m /\
    match newest (s_trades s) with
    | Some t =>
        if t_closed t then sm_open m = fZ 0
        else exists e f, t_entry_price t = Some e /\ t_fill t = Some f /\
          sm_open m = profit_at t e f (quote (p_close (c_data c)) (c_index c + length sigs))
    | None => sm_open m = fZ 0
    end.
  Proof.
    intros A. cbn zeta. pose proof (after_tracks _ _ _ _ A) as T. split.
    - rewrite (tr_equity _ _ _ _ _ T). destruct sigs; reflexivity.
    - rewrite (tr_trades _ _ _ _ _ T), newest_map.
      rewrite (tr_open _ _ _ _ _ T) by (intros E; apply app_eq_nil in E; destruct E; discriminate).
      rewrite app_length. cbn [length]. replace (c_index c + (length sigs + 1) - 1)%nat with (c_index c + length sigs)%nat by lia.
      unfold open_gain. destruct (newest (pos_at cfg (c_data c) (c_index c) (sigs ++ [x]))) as [p|]; cbn [option_map]; [|reflexivity].
      change (t_closed (as_trade p)) with (pos_closed p). destruct (pos_closed p); [reflexivity|].
      exists (snd (pos_in p)), (pos_size p). repeat split.
  Qed.
  (** The price it is valued at is the bar's close: with an open trade the
      step panics if the close is missing. *)
  Theorem C31_close_needed (cfg : sconfig F) c sigs x s t : after cfg c (sigs ++ [x]) s ->
    newest (s_trades s) = Some t -> t_closed t = false ->
    exists px, nth_error (p_close (c_data c)) (c_index c + length sigs) = Some (Some px).
  Proof.
    intros [os R] N C. destruct (run_split _ _ _ _ _ _ _ R) as (s1 & o1 & [] & _ & ST).
    unfold strategy_step in ST. unfold bar_open, bar_close in ST. rewrite ctx_at_data, ctx_at_index in ST.
    destruct (vget (p_open (c_data c)) (c_index c + length sigs)) as [op|]; [|discriminate].
    cbn [rbind] in ST. unfold vget in ST.
    destruct (nth_error (p_close (c_data c)) (c_index c + length sigs)) as [[px|]|]; cbn [unwrap rbind] in ST; [exists px; reflexivity| |discriminate].
    exfalso.
    match type of ST with rbind ?r _ = _ => destruct r as [[[[[trs m] en] ex] un]|] end; [|discriminate].
    cbn [rbind] in ST.
    destruct (split_last trs) as [[ol la]|] eqn:SL.
    - destruct (t_closed la) eqn:TC; [|discriminate]. cbn [rbind] in ST. injection ST as <-. cbn [s_trades] in N.
      rewrite split_last_newest, N in SL. cbn in SL. injection SL as _ <-. congruence.
    - cbn [rbind] in ST. injection ST as <-. cbn [s_trades] in N. rewrite split_last_newest, N in SL. discriminate.
  Qed.
  Theorem C31_start (cfg : sconfig F) : sm_equity (s_metrics (strategy_new cfg)) = sc_capital cfg.
  Proof. reflexivity. Qed.
End C31.

(** ** C32 *)
Section C32.
  Context {F : Type} {NF : Num F}.
  Theorem C32_in_market (cfg : sconfig F) c sigs s : sc_continuous cfg = true -> after cfg c sigs s ->
    forall tick price d, newest (orders cfg (c_data c) (c_index c) sigs) = Some (tick, price, d) ->
    exists t, newest (s_trades s) = Some t /\ t_closed t = false /\ t_dir t = d /\
      length (filter (fun t => negb (t_closed t)) (s_trades s)) = 1.
  Proof.
    intros CO A tick price d. rewrite (C29_orders _ _ _ _ A), newest_map.
    pose proof (pos_at_sane cfg (c_data c) (c_index c) sigs) as [SA _]. unfold pos_at in SA.
    revert SA. generalize (orders cfg (c_data c) (c_index c) sigs) as os. intros os SA N.
    assert (G : exists p, newest (book cfg os) = Some p /\ pos_closed p = false /\ pos_dir p = d).
    { clear SA. destruct os as [|o os _] using rev_ind; [discriminate|]. rewrite newest_snoc in N. injection N as ->.
      unfold book. rewrite fold_left_app. cbn [fold_left]. fold (book cfg os).
      destruct (place_cases cfg (book cfg os) (tick, price, d)) as [(-> & _)|(old & p & E & CL & H)].
      - rewrite newest_snoc. eexists; split; [reflexivity|]. split; [apply enter_closed|apply enter_dir].
      - destruct H as [(D & -> & _)|(D & _ & [(_ & -> & _)|(CO' & _)])]; [| |congruence].
        + rewrite E, newest_snoc. eexists; split; [reflexivity|]. split; [exact CL|exact D].
        + rewrite app_assoc, newest_snoc. eexists; split; [reflexivity|]. split; [apply enter_closed|apply enter_dir]. }
    destruct G as (p & Np & C & D). rewrite Np. cbn [option_map]. exists (as_trade p).
    split; [reflexivity|]. split; [exact C|]. split; [exact D|].
    pose proof (newest_split _ _ Np) as SP. rewrite SP in SA |- *. rewrite map_app, filter_app, app_length. cbn [map filter].
    change (t_closed (as_trade p)) with (pos_closed p). rewrite C. cbn [negb length].
    apply sane_closed_prefix in SA. rewrite forallb_forall in SA.
    assert (Z : filter (fun t : trade F => negb (t_closed t)) (map as_trade (removelast (book cfg os))) = []).
    { clear -SA. revert SA. generalize (removelast (book cfg os)) as l. intros l SA. induction l as [|a l IH]; [reflexivity|]. cbn [map filter].
      change (t_closed (as_trade a)) with (pos_closed a). rewrite SA by (left; reflexivity). cbn [negb]. apply IH.
      intros b Hb; apply SA; right; exact Hb. }
    rewrite Z. reflexivity.
  Qed.
  Theorem C32_alternates (cfg : sconfig F) c sigs s : sc_continuous cfg = true -> after cfg c sigs s ->
    forall i t1 t2, nth_error (s_trades s) i = Some t1 -> nth_error (s_trades s) (S i) = Some t2 ->
    t_dir t2 = get_opposite (t_dir t1) /\ t_entry_tick t2 = t_exit_tick t1 /\ t_entry_price t2 = t_exit_price t1.
  Proof.
    intros CO A i t1 t2 H1 H2.
    destruct (nth_trades _ _ _ _ _ _ A H1) as (p1 & Hp1 & ->).
    destruct (nth_trades _ _ _ _ _ _ A H2) as (p2 & Hp2 & ->).
    destruct (pos_at_sane cfg (c_data c) (c_index c) sigs) as [[_ S2 _] _].
    destruct (S2 i p1 p2 Hp1 Hp2) as (x & q & E & K). rewrite CO in K. destruct K as [K1 K2].
    unfold as_trade; cbn. rewrite E, K1, K2. repeat split.
  Qed.
End C32.

(** ** C33: what the executed signal does, in terms of the trades before it.
    Stated for both modes; the third case is where they differ. *)
Section C33.
  Context {F : Type} {NF : Num F}.
  Definition opened_at (t : trade F) (d : direction) (tick : nat) (price : F) : Prop :=
    t_dir t = d /\ t_closed t = false /\ t_entry_tick t = Some tick /\ t_entry_price t = Some price /\
    t_exit_tick t = None /\ t_exit_price t = None.
  (** [t'] is [t] closed at [tick], [price]. *)
  Definition closes (t t' : trade F) (tick : nat) (price : F) : Prop :=
    t_closed t' = true /\ t_exit_tick t' = Some tick /\ t_exit_price t' = Some price /\
    t_dir t' = t_dir t /\ t_entry_tick t' = t_entry_tick t /\ t_entry_price t' = t_entry_price t /\ t_fill t' = t_fill t.

  Theorem C33_signal_effect (cfg : sconfig F) c sigs x s1 s2 : after cfg c sigs s1 -> after cfg c (sigs ++ [x]) s2 ->
    let tick := c_index c + length sigs in
    let price := quote (fill_column cfg c) tick in
    match executed cfg sigs x with
    | None => s_trades s2 = s_trades s1
    | Some d =>
        match newest (s_trades s1) with
        | Some t =>
            if t_closed t then
              exists n, s_trades s2 = s_trades s1 ++ [n] /\ opened_at n d tick price
            else if dir_eqb (t_dir t) d then s_trades s2 = s_trades s1
            else
              exists t', closes t t' tick price /\
              if sc_continuous cfg then
                exists n, s_trades s2 = removelast (s_trades s1) ++ [t'; n] /\ opened_at n d tick price
              else s_trades s2 = removelast (s_trades s1) ++ [t']
        | None => exists n, s_trades s2 = [n] /\ opened_at n d tick price
        end
    end.
  Proof.
    intros A1 A2. cbn zeta. pose proof (after_tracks _ _ _ _ A1) as T1. pose proof (after_tracks _ _ _ _ A2) as T2.
    rewrite (tr_trades _ _ _ _ _ T1), (tr_trades _ _ _ _ _ T2), pos_at_snoc.
    assert (NO : new_order cfg (c_data c) (c_index c) sigs x =
       match executed cfg sigs x with Some d => [(c_index c + length sigs, quote (fill_column cfg c) (c_index c + length sigs), d)] | None => [] end).
    { unfold new_order, executed, fill_column, order_at. destruct (sc_on_close cfg); reflexivity. }
    rewrite NO. destruct (executed cfg sigs x) as [d|]; [|reflexivity].
    set (ps := pos_at cfg (c_data c) (c_index c) sigs) in *. set (o := (c_index c + length sigs, quote (fill_column cfg c) (c_index c + length sigs), d)).
    assert (OP : forall l, opened_at (as_trade (enter cfg l o)) d (c_index c + length sigs) (quote (fill_column cfg c) (c_index c + length sigs))).
    { intros l. unfold o; repeat split. }
    rewrite newest_map. destruct (place_cases cfg ps o) as [(-> & _ & _ & CL)|(old & p & E & CL & H)].
    - destruct (newest ps) as [p|] eqn:N; cbn [option_map].
      + change (t_closed (as_trade p)) with (pos_closed p). rewrite (CL p eq_refl). rewrite map_app. eexists; split; [reflexivity|apply OP].
      + apply newest_nil in N. rewrite N. eexists; split; [reflexivity|apply OP].
    - clearbody ps. subst ps. rewrite newest_snoc. cbn [option_map].
      change (t_closed (as_trade p)) with (pos_closed p). rewrite CL. change (t_dir (as_trade p)) with (pos_dir p).
      destruct H as [(D & -> & _)|(D & _ & H)]; rewrite D; unfold odir, o; cbn [snd].
      + assert (X : dir_eqb d d = true) by (destruct d; reflexivity). rewrite X. reflexivity.
      + assert (X : dir_eqb (get_opposite d) d = false) by (destruct d; reflexivity). rewrite X. fold o.
        exists (as_trade (leave p o)). split; [unfold o; repeat split|].
        rewrite map_app; cbn [map]; rewrite !removelast_last.
        destruct H as [(-> & -> & _)|(-> & -> & _)].
        * rewrite !map_app. cbn [map app]. eexists; split; [reflexivity|apply OP].
        * rewrite map_app. reflexivity.
  Qed.
End C33.

(** ** C34 *)
Section C34.
  Context {F : Type} {NF : Num F}.
  Theorem C34_events (cfg : sconfig F) c sigs x s : after cfg c (sigs ++ [x]) s ->
    let tick := c_index c + length sigs in
    forall t,
      (s_on_exit s = Some t <-> In t (s_trades s) /\ t_exit_tick t = Some tick) /\
      (s_on_entry s = Some t <-> In t (s_trades s) /\ t_entry_tick t = Some tick).
  Proof.
    intros A. cbn zeta. intros t. pose proof (after_tracks _ _ _ _ A) as T.
    destruct A as [os R]. destruct (run_events _ _ _ _ _ _ R) as [EN EX].
    rewrite EN, EX, (tr_trades _ _ _ _ _ T). unfold event. rewrite pos_at_snoc.
    destruct (pos_at_sane cfg (c_data c) (c_index c) sigs) as [SA AI].
    set (ps := pos_at cfg (c_data c) (c_index c) sigs) in *. set (hi := c_index c + length sigs) in *.
    (* nothing in the old book has this tick *)
    assert (OLD : forall p, In p ps -> (forall q, pos_out p <> Some (hi, q)) /\ fst (pos_in p) <> hi).
    { intros p Hp. apply In_nth_error in Hp. destruct Hp as [i Hi]. destruct (sn_one _ _ _ _ SA i p Hi) as [X Y].
      split; [|lia]. intros q E. rewrite E in Y. lia. }
    assert (TX : forall p, t_exit_tick (as_trade p) = Some hi <-> exists q : F, pos_out p = Some (hi, q)).
    { intros p. unfold as_trade; cbn. destruct (pos_out p) as [[a q]|]; cbn; split.
      - intros E; injection E as ->. eexists; reflexivity.
      - intros [q' E]; injection E as -> _. reflexivity.
      - discriminate.
      - intros [q E]; discriminate. }
    assert (TE : forall p, t_entry_tick (as_trade p) = Some hi <-> fst (pos_in p) = hi).
    { intros p. unfold as_trade; cbn. split; [intros E; injection E; auto|intros ->; reflexivity]. }
    assert (NONE : forall l, (forall p, In p l -> In p ps) ->
       ((None = Some t <-> In t (map as_trade l) /\ t_exit_tick t = Some hi) /\
        (None = Some t <-> In t (map as_trade l) /\ t_entry_tick t = Some hi))).
    { intros l Hl. split; (split; [discriminate|]); intros [I E]; apply in_map_iff in I; destruct I as (p & <- & I); apply Hl, OLD in I.
      - apply TX in E. destruct E as [q E]. exfalso. apply (proj1 I q E).
      - apply TE in E. tauto. }
    destruct (new_order cfg (c_data c) (c_index c) sigs x) as [|o ol] eqn:NO; [apply NONE; auto|].
    assert (OT : otick o = hi).
    { unfold new_order, order_at in NO. destruct (sc_on_close cfg); [destruct x|destruct (last sigs None)]; inversion NO; reflexivity. }
    assert (EH : forall l, fst (pos_in (enter cfg l o)) = hi /\ forall q, pos_out (enter cfg l o) <> Some (hi, q)).
    { intros l. rewrite enter_in, enter_out. split; [exact OT|discriminate]. }
    destruct (place_cases cfg ps o) as [(-> & -> & -> & CL)|(old & p & E & CL & H)].
    - cbn [option_map]. rewrite map_app. cbn [map]. split.
      + split; [discriminate|]. intros [I E]. apply in_app_or in I. destruct I as [I|[<-|[]]].
        * destruct (NONE ps (fun p H => H)) as [N1 _]. apply N1; auto.
        * apply TX in E. destruct E as [q E]. exfalso. apply (proj2 (EH ps) q E).
      + split.
        * intros E; injection E as <-. split; [apply in_or_app; right; left; reflexivity|apply TE, EH].
        * intros [I E]. apply in_app_or in I. destruct I as [I|[<-|[]]]; [|reflexivity].
          destruct (NONE ps (fun p H => H)) as [_ N2]. exfalso. assert (None = Some t) by (apply N2; auto). discriminate.
    - assert (IO : forall a, In a old -> In a ps) by (intros a Ha; rewrite E; apply in_or_app; left; exact Ha).
      assert (LH : fst (pos_in (leave p o)) <> hi /\ pos_out (leave p o) = Some (hi, oprice o)).
      { rewrite leave_in, leave_out, OT. split; [|reflexivity]. apply OLD. rewrite E. apply in_or_app; right; left; reflexivity. }
      destruct (NONE old IO) as [N1 N2].
      destruct H as [(D & -> & -> & ->)|(D & -> & H)]; [apply NONE; auto|].
      cbn [option_map].
      destruct H as [(CO & -> & ->)|(CO & -> & ->)]; cbn [option_map]; rewrite !map_app; cbn [map].
      + split; split.
        * intros X; injection X as <-. split; [apply in_or_app; right; left; reflexivity|]. apply TX. eexists; apply LH.
        * intros [I X]. apply in_app_or in I. destruct I as [I|[<-|[<-|[]]]]; [|reflexivity|].
          -- exfalso. assert (None = Some t) by (apply N1; auto). discriminate.
          -- apply TX in X. destruct X as [q X]. exfalso. eapply EH; exact X.
        * intros X; injection X as <-. split; [apply in_or_app; right; right; left; reflexivity|]. apply TE, EH.
        * intros [I X]. apply in_app_or in I. destruct I as [I|[<-|[<-|[]]]]; [| |reflexivity].
          -- exfalso. assert (None = Some t) by (apply N2; auto). discriminate.
          -- apply TE in X. exfalso. apply LH; exact X.
      + split; split.
        * intros X; injection X as <-. split; [apply in_or_app; right; left; reflexivity|]. apply TX. eexists; apply LH.
        * intros [I X]. apply in_app_or in I. destruct I as [I|[<-|[]]]; [|reflexivity].
          exfalso. assert (None = Some t) by (apply N1; auto). discriminate.
        * discriminate.
        * intros [I X]. apply in_app_or in I. destruct I as [I|[<-|[]]]; [apply N2; auto|].
          apply TE in X. exfalso. apply LH; exact X.
  Qed.
End C34.

(** ** C35 *)
Section C35.
  Context {F : Type} {NF : Num F}.
  Local Open Scope num_scope.
  (** The size of the [i]-th trade.  The equity is the capital plus the profits
      of the trades before it (all closed by then), plus the open profit, 0. *)
  Theorem C35_size (cfg : sconfig F) c sigs s : after cfg c sigs s ->
    forall i t, nth_error (s_trades s) i = Some t ->
    if sc_with_equity cfg then
      forallb t_closed (firstn i (s_trades s)) = true /\
      let equity := sc_capital cfg + total (map t_pnl (firstn i (s_trades s))) + fZ 0 in
      exists price, t_entry_price t = Some price /\
      t_fill t = Some (if (equity <=? fZ 0) || (price <=? fZ 0) then fZ 0 else equity / price)
    else t_fill t = Some (fZ 1).
  Proof.
    intros A i t H. destruct (nth_trades _ _ _ _ _ _ A H) as (p & Hp & ->).
    destruct (pos_at_sane cfg (c_data c) (c_index c) sigs) as [SA _].
    pose proof (sn_size _ _ _ _ SA i p Hp) as Z. rewrite (tr_trades _ _ _ _ _ (after_tracks _ _ _ _ A)).
    set (ps := pos_at cfg (c_data c) (c_index c) sigs) in *.
    unfold size_for in Z. destruct (sc_with_equity cfg) eqn:WE; [|unfold as_trade; cbn; rewrite Z; reflexivity].
    rewrite firstn_map.
    assert (CL : forallb pos_closed (firstn i ps) = true).
    { apply forallb_forall. intros a Ha. apply In_nth_error in Ha. destruct Ha as [j Hj].
      assert (L : (j < i)%nat) by (apply nth_lt in Hj; rewrite firstn_length in Hj; lia).
      assert (Hj' : nth_error ps j = Some a).
      { rewrite <- (firstn_skipn i ps). rewrite nth_error_app1; [exact Hj|]. apply nth_lt in Hj; exact Hj. }
      destruct (sn_one _ _ _ _ SA j a Hj') as [_ Y]. unfold pos_closed. destruct (pos_out a) as [[]|]; [reflexivity|].
      apply nth_lt in Hp. lia. }
    split.
    - rewrite forallb_forall in *. intros a Ha. apply in_map_iff in Ha. destruct Ha as (b & <- & Hb). apply CL; exact Hb.
    - cbn zeta. exists (snd (pos_in p)). split; [reflexivity|]. change (t_fill (as_trade p)) with (Some (pos_size p)). rewrite Z.
      assert (PR : profits (firstn i ps) = map t_pnl (map as_trade (firstn i ps))).
      { unfold profits. rewrite map_map. cbn. revert CL. generalize (firstn i ps). intros l. induction l as [|a l IH]; [reflexivity|].
        cbn [forallb filter map]. intros X. apply andb_true_iff in X. destruct X as [X1 X2]. rewrite X1. cbn [map]. rewrite IH by exact X2. reflexivity. }
      rewrite PR. reflexivity.
  Qed.
End C35.

Section C35_exact.
  Open Scope R_scope.
  (** The cost of a position bought with equity is that equity. *)
  Theorem C35_cost e p : 0 < e -> 0 < p ->
    fmul (fill_size (Fin e) (Fin p)) (Fin p) = Fin e.
  Proof.
    intros He Hp. unfold fill_size. rewrite fin_Z, !fin_le.
    destruct (Rleb_spec e 0); [lra|]. destruct (Rleb_spec p 0); [lra|]. cbn [orb].
    rewrite fin_div, fin_mul by lra. f_equal. field. lra.
  Qed.
  Theorem C35_no_funds (e p : R) : e <= 0 \/ p <= 0 -> fill_size (Fin e) (Fin p) = Fin 0.
  Proof.
    intros H. unfold fill_size. rewrite fin_Z, !fin_le.
    destruct (Rleb_spec e 0), (Rleb_spec p 0); try reflexivity; lra.
  Qed.
  Theorem C35_antisymmetric (size e x : R) :
    trade_pnl (Fin size) (Fin e) (Fin x) false = fneg (trade_pnl (Fin size) (Fin e) (Fin x) true) /\
    trade_pnl (Fin size) (Fin e) (Fin x) true = Fin (size * (x - e)) /\
    forall long, trade_pnl (Fin size) (Fin e) (Fin e) long = Fin 0.
  Proof.
    unfold trade_pnl. split; [|split].
    - cbn. f_equal. lra.
    - cbn. f_equal. lra.
    - intros [|]; cbn; f_equal; lra.
  Qed.
End C35_exact.

(** ** A concrete history *)
(** Six bars, default configuration except capital 100; long at bar 0, short
    at bar 2, short again at 3, long at bar 4 (and a last one that never
    fills). *)
Definition sig6 : list (option direction) := [Some Long; None; Some Short; Some Short; Some Long; Some Short].
Definition cfg_of (on_close cont eq : bool) : sconfig f64 := mkSConfig on_close cont (q 100) eq.
Lemma ctx6_priced : priced ctx6 6.
Proof. intros k Hk. do 6 (destruct k as [|k]; [split; eexists; reflexivity|]). lia. Qed.
Definition summary (r : res (strategy f64 * list unit)) : option (list (direction * bool * option nat * option nat) * nat * nat * nat) :=
  match r with
  | Ok (s, _) => Some (map (fun t => (t_dir t, t_closed t, t_entry_tick t, t_exit_tick t)) (s_trades s),
                   sm_closed (s_metrics s), sm_winning (s_metrics s), sm_losing (s_metrics s))
  | Panic => None
  end.
Example strategy_open_continuous : summary (run_st strategy_step ctx6 (strategy_new (cfg_of false true false)) sig6) =
  Some ([(Long, true, Some 1, Some 3); (Short, true, Some 3, Some 5); (Long, false, Some 5, None)], 2, 2, 0).
Proof. vm_compute. reflexivity. Qed.
Example strategy_close_continuous : summary (run_st strategy_step ctx6 (strategy_new (cfg_of true true true)) sig6) =
  Some ([(Long, true, Some 0, Some 2); (Short, true, Some 2, Some 4); (Long, true, Some 4, Some 5); (Short, false, Some 5, None)], 3, 3, 0).
Proof. vm_compute. reflexivity. Qed.
Example strategy_open_non_continuous : summary (run_st strategy_step ctx6 (strategy_new (cfg_of false false false)) sig6) =
  Some ([(Long, true, Some 1, Some 3); (Short, true, Some 4, Some 5)], 2, 1, 1).
Proof. vm_compute. reflexivity. Qed.
Example after_nonvacuous cont oc eq : exists s, after (cfg_of oc cont eq) ctx6 sig6 s.
Proof. apply C28_runs. exact ctx6_priced. Qed.
