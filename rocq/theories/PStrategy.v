(** * PStrategy: the strategy engine keeps the book of [SpecStrategy]. *)
From Verif Require Export PRun SpecStrategy.

Lemma split_last_newest {A} (l : list A) :
  split_last l = option_map (fun x => (removelast l, x)) (newest l).
Proof.
  destruct l as [|a l] using rev_ind; [reflexivity|].
  unfold split_last. rewrite rev_app_distr. cbn. rewrite rev_involutive, newest_snoc, removelast_last. reflexivity.
Qed.
Lemma newest_map {A B} (f : A -> B) l : newest (map f l) = option_map f (newest l).
Proof. unfold newest. rewrite map_length. apply nth_error_map. Qed.
Lemma removelast_map {A B} (f : A -> B) l : removelast (map f l) = map f (removelast l).
Proof.
  destruct l as [|a l] using rev_ind; [reflexivity|]. rewrite map_app. cbn [map]. rewrite !removelast_last. reflexivity.
Qed.
Lemma newest_nil {A} (l : list A) : newest l = None <-> l = [].
Proof.
  destruct l as [|a l] using rev_ind; [split; reflexivity|]. rewrite newest_snoc. split; [discriminate|].
  intros E. apply app_eq_nil in E. destruct E; discriminate.
Qed.
Lemma newest_split {A} (l : list A) a : newest l = Some a -> l = removelast l ++ [a].
Proof.
  destruct l as [|b l _] using rev_ind; [discriminate|]. rewrite newest_snoc, removelast_last. intros E; injection E as ->. reflexivity.
Qed.
Lemma flat_map_snoc {A B} (f : A -> list B) l a : flat_map f (l ++ [a]) = flat_map f l ++ f a.
Proof. rewrite flat_map_app. cbn. rewrite app_nil_r. reflexivity. Qed.
Lemma flat_map_ext_in {A B} (f g : A -> list B) l :
  (forall a, In a l -> f a = g a) -> flat_map f l = flat_map g l.
Proof.
  intros H; induction l as [|a l IH]; [reflexivity|]. cbn. rewrite H by (left; reflexivity). f_equal.
  apply IH. intros b Hb; apply H; right; exact Hb.
Qed.

Section PStrategy.
  Context {F : Type} {NF : Num F}.
  Local Open Scope num_scope.
  Implicit Types (ps : list (position F)) (cfg : sconfig F).

  (** What one order does to a book. *)
  Definition exit_of cfg ps (o : order) : option (position F) :=
    match newest ps with
    | None => None
    | Some p => if pos_closed p then None else if dir_eqb (pos_dir p) (snd o) then None else Some (leave p o)
    end.
  Definition entry_of cfg ps (o : order) : option (position F) :=
    match newest ps with
    | None => Some (enter cfg ps o)
    | Some p =>
        if pos_closed p then Some (enter cfg ps o)
        else if dir_eqb (pos_dir p) (snd o) then None
        else if sc_continuous cfg then Some (enter cfg (removelast ps ++ [leave p o]) o) else None
    end.

  (** Tallies over a book. *)
  Definition won (x : F) : bool := fZ 0 <? x.
  Definition lost (x : F) : bool := negb (fZ 0 <? x) && (x <? fZ 0).
  Definition side (d : direction) ps : list F :=
    map realised (filter (fun p => pos_closed p && dir_eqb (pos_dir p) d) ps).
  Definition open_gain ps (x : F) : F :=
    match newest ps with
    | Some p => if pos_closed p then fZ 0 else gain p x
    | None => fZ 0
    end.
  Record tallied ps (m : smetrics F) : Prop := {
    ta_net : sm_net m = total (profits ps);
    ta_gp : sm_gross_profit m = total (filter won (profits ps));
    ta_gl : sm_gross_loss m = total (map fabs (filter lost (profits ps)));
    ta_n : sm_closed m = length (profits ps);
    ta_w : sm_winning m = length (filter won (profits ps));
    ta_l : sm_losing m = length (filter lost (profits ps));
    ta_long : sm_long_net m = total (side Long ps);
    ta_short : sm_short_net m = total (side Short ps);
    ta_flat : (match newest ps with Some p => pos_closed p | None => true end) = true -> sm_open m = fZ 0
  }.

  Lemma total_snoc l (x : F) : total (l ++ [x]) = total l + x.
  Proof. unfold total. rewrite fold_left_app. reflexivity. Qed.
  Lemma profits_app ps1 ps2 : profits (ps1 ++ ps2) = profits ps1 ++ profits ps2.
  Proof. unfold profits. rewrite filter_app, map_app. reflexivity. Qed.
  Lemma side_app d ps1 ps2 : side d (ps1 ++ ps2) = side d ps1 ++ side d ps2.
  Proof. unfold side. rewrite filter_app, map_app. reflexivity. Qed.
  Lemma profits_open ps p : pos_closed p = false -> profits (ps ++ [p]) = profits ps.
  Proof. intros E. rewrite profits_app. unfold profits at 2. cbn. rewrite E. apply app_nil_r. Qed.
  Lemma side_open d ps p : pos_closed p = false -> side d (ps ++ [p]) = side d ps.
  Proof. intros E. rewrite side_app. unfold side at 2. cbn. rewrite E. apply app_nil_r. Qed.
  Lemma profits_closed ps p : pos_closed p = true -> profits (ps ++ [p]) = profits ps ++ [realised p].
  Proof. intros E. rewrite profits_app. unfold profits at 2. cbn. rewrite E. reflexivity. Qed.

  Lemma tallied_enter ps p m : tallied ps m -> pos_closed p = false -> tallied (ps ++ [p]) m.
  Proof.
    intros T E. destruct T. split; rewrite ?profits_open, ?side_open by exact E; auto.
    rewrite newest_snoc, E. discriminate.
  Qed.
  Lemma tallied_leave ps p o m : tallied (ps ++ [p]) m -> pos_closed p = false ->
    tallied (ps ++ [leave p o]) (metrics_close m (pos_dir p) (realised (leave p o))).
  Proof.
    intros T E. destruct T. rewrite ?profits_open, ?side_open in * by exact E.
    assert (C : pos_closed (leave p o) = true) by (destruct o as [[t x] d]; reflexivity).
    assert (D : pos_dir (leave p o) = pos_dir p) by (destruct o as [[t x] d]; reflexivity).
    set (v := realised (leave p o)) in *.
    assert (L : forall d, side d (ps ++ [leave p o]) = side d ps ++ (if dir_eqb (pos_dir p) d then [v] else [])).
    { intros d. rewrite side_app. f_equal. unfold side. cbn. rewrite C, D. cbn. destruct (dir_eqb (pos_dir p) d); reflexivity. }
    assert (W : filter won [v] = if fZ 0 <? v then [v] else []) by reflexivity.
    assert (W' : filter lost [v] = if negb (fZ 0 <? v) && (v <? fZ 0) then [v] else []) by reflexivity.
    split; unfold metrics_close; cbn [sm_net sm_gross_profit sm_gross_loss sm_closed sm_winning sm_losing sm_long_net sm_short_net sm_open];
      unfold fgtb; rewrite ?profits_closed, ?filter_app, ?map_app, ?app_length, ?L by exact C; fold v;
      rewrite ?W, ?W'.
    - rewrite total_snoc, ta_net0. reflexivity.
    - destruct (fZ 0 <? v); [rewrite total_snoc, ta_gp0|rewrite app_nil_r]; auto.
    - destruct (negb (fZ 0 <? v) && (v <? fZ 0)); cbn [map]; [rewrite total_snoc, ta_gl0|rewrite app_nil_r]; auto.
    - rewrite ta_n0; reflexivity.
    - destruct (fZ 0 <? v); cbn; rewrite ta_w0; lia.
    - destruct (negb (fZ 0 <? v) && (v <? fZ 0)); cbn; rewrite ta_l0; lia.
    - destruct (pos_dir p); cbn; rewrite ?total_snoc, ?app_nil_r, ?ta_long0; reflexivity.
    - destruct (pos_dir p); cbn; rewrite ?total_snoc, ?app_nil_r, ?ta_short0; reflexivity.
    - reflexivity.
  Qed.

  (** In continuous mode the newest position is never closed. *)
  Definition always_in cfg ps : Prop :=
    sc_continuous cfg = true -> forall p, newest ps = Some p -> pos_closed p = false.

  Definition after_exit (m : smetrics F) (e : option (position F)) : smetrics F :=
    match e with Some p => metrics_close m (pos_dir p) (realised p) | None => m end.

  Lemma dir_eqb_sign d : (if dir_eqb d Long then fZ 1 else fZ (-1)) = sign (F:=F) d.
  Proof. destruct d; reflexivity. Qed.
  Lemma as_trade_leave (p : position F) t x d :
    as_trade (leave p (t, x, d)) =
    mkTrade (pos_dir p) true (Some (fst (pos_in p))) (Some (snd (pos_in p))) (Some t) (Some x) (Some (pos_size p))
      (gain p x).
  Proof. reflexivity. Qed.

  Lemma fill_spec cfg ps m t x d : always_in cfg ps -> tallied ps m ->
    let o := (t, x, d) in
    strategy_fill cfg (map as_trade ps) m t (Some x) d =
      Ok (map as_trade (place cfg ps o), after_exit m (exit_of cfg ps o),
          option_map as_trade (entry_of cfg ps o), option_map as_trade (exit_of cfg ps o)) /\
    tallied (place cfg ps o) (after_exit m (exit_of cfg ps o)) /\ always_in cfg (place cfg ps o).
  Proof.
    intros A T. cbn zeta. unfold strategy_fill, exit_of, entry_of, place.
    rewrite split_last_newest, newest_map. destruct (newest ps) as [p|] eqn:N; cbn [option_map].
    2:{ (* empty book *)
      apply newest_nil in N; subst ps. cbn [rbind snd].
      assert (S0 : (if sc_with_equity cfg then px <- unwrap (Some x) ;; Ok (fill_size (sc_capital cfg + sm_net m + sm_open m) px)
                    else Ok (fZ 1)) = Ok (size_for cfg [] x)).
      { unfold size_for. destruct (sc_with_equity cfg); [|reflexivity]. cbn. rewrite (ta_net _ _ T), (ta_flat _ _ T) by reflexivity. reflexivity. }
      rewrite S0. cbn [rbind map app after_exit]. split; [reflexivity|]. split.
      - apply (@tallied_enter []); [exact T|reflexivity].
      - intros _ p. cbn. intros E; injection E as <-. reflexivity. }
    pose proof (newest_split _ _ N) as SP.
    change (t_dir (as_trade p)) with (pos_dir p). change (t_closed (as_trade p)) with (pos_closed p). cbn [snd].
    destruct (pos_closed p) eqn:C.
    - (* flat: not continuous *)
      assert (CO : sc_continuous cfg = false).
      { destruct (sc_continuous cfg) eqn:CO; [|reflexivity]. specialize (A CO p N). congruence. }
      rewrite CO. cbn [negb]. rewrite andb_false_r. cbn [negb andb].
      assert (CR : dir_eqb (pos_dir p) d || negb (dir_eqb (pos_dir p) d) && true = true) by (destruct (dir_eqb (pos_dir p) d); reflexivity).
      rewrite CR. cbn [rbind].
      assert (S0 : (if sc_with_equity cfg then px <- unwrap (Some x) ;; Ok (fill_size (sc_capital cfg + sm_net m + sm_open m) px)
                    else Ok (fZ 1)) = Ok (size_for cfg ps x)).
      { unfold size_for. destruct (sc_with_equity cfg); [|reflexivity]. cbn. rewrite (ta_net _ _ T), (ta_flat _ _ T) by (rewrite N; exact C). reflexivity. }
      rewrite S0. cbn [rbind after_exit option_map]. rewrite map_app. split; [reflexivity|]. split.
      + apply tallied_enter; [exact T|reflexivity].
      + intros CO'. congruence.
    - cbn [negb]. rewrite andb_true_r. destruct (dir_eqb (pos_dir p) d) eqn:D; cbn [negb andb orb].
      + destruct (sc_continuous cfg); cbn [rbind option_map after_exit]; (split; [reflexivity|split; [exact T|exact A]]).
      + cbn [unwrap rbind]. unfold trade_cur_pnl at 1; cbn [t_fill t_entry_price as_trade unwrap rbind t_dir t_entry_tick].
        change (trade_pnl (pos_size p) (snd (pos_in p)) x (dir_eqb (pos_dir p) Long)) with
          ((x - snd (pos_in p)) * pos_size p * (if dir_eqb (pos_dir p) Long then fZ 1 else fZ (-1))).
        rewrite dir_eqb_sign. fold (gain p x).
        change (as_trade p) with (as_trade p). rewrite removelast_map.
        assert (TL : tallied (removelast ps ++ [leave p (t, x, d)])
                       (metrics_close m (pos_dir p) (realised (leave p (t, x, d))))).
        { apply tallied_leave; [rewrite <- SP; exact T|exact C]. }
        destruct (sc_continuous cfg) eqn:CO; cbn [rbind].
        * match goal with |- context [if sc_with_equity cfg then ?a else ?b] =>
            replace (if sc_with_equity cfg then a else b) with (Ok (size_for cfg (removelast ps ++ [leave p (t, x, d)]) x)) end.
          2:{ unfold size_for. destruct (sc_with_equity cfg); [|reflexivity]. unfold fill_size.
              rewrite <- (ta_net _ _ TL). reflexivity. }
          cbn [rbind option_map after_exit]. rewrite !map_app. cbn [map].
          split; [reflexivity|]. split.
          -- apply tallied_enter; [exact TL|reflexivity].
          -- intros _ p'. rewrite newest_snoc. intros E; injection E as <-; reflexivity.
        * rewrite map_app. cbn [map option_map after_exit]. split; [reflexivity|]. split; [exact TL|]. intros CO'; congruence.
  Qed.

  (** Without a price the order must be one that changes nothing, or the very
      step panics. *)
  Lemma fill_none cfg ps m t d r : always_in cfg ps ->
    strategy_fill cfg (map as_trade ps) m t None d = Ok r ->
    (r = (map as_trade ps, m, None, None) /\
     forall x, place cfg ps (t, x, d) = ps /\ exit_of cfg ps (t, x, d) = None /\ entry_of cfg ps (t, x, d) = None) \/
    (exists tr, r = (map as_trade ps ++ [tr], m, Some tr, None) /\ t_closed tr = false /\ t_entry_price tr = None).
  Proof.
    intros A. unfold strategy_fill, exit_of, entry_of, place.
    rewrite split_last_newest, newest_map. destruct (newest ps) as [p|] eqn:N; cbn [option_map].
    - change (t_dir (as_trade p)) with (pos_dir p). change (t_closed (as_trade p)) with (pos_closed p). cbn [snd].
      destruct (pos_closed p) eqn:C.
      + assert (CO : sc_continuous cfg = false).
        { destruct (sc_continuous cfg) eqn:CO; [|reflexivity]. specialize (A CO p N). congruence. }
        rewrite CO. cbn [negb]. rewrite andb_false_r. cbn [negb andb].
        assert (CR : dir_eqb (pos_dir p) d || negb (dir_eqb (pos_dir p) d) && true = true) by (destruct (dir_eqb (pos_dir p) d); reflexivity).
        rewrite CR. cbn [rbind]. destruct (sc_with_equity cfg); cbn [unwrap rbind]; [discriminate|].
        intros E; injection E as <-. right. eexists; split; [reflexivity|]. split; reflexivity.
      + cbn [negb]. rewrite andb_true_r. destruct (dir_eqb (pos_dir p) d) eqn:D; cbn [negb andb orb unwrap rbind]; [|discriminate].
        destruct (sc_continuous cfg); cbn [rbind]; intros E; injection E as <-; left; (split; [reflexivity|]); intros x; repeat split.
    - cbn [rbind]. destruct (sc_with_equity cfg); cbn [unwrap rbind]; [discriminate|].
      intros E; injection E as <-. right. eexists; split; [reflexivity|]. split; reflexivity.
  Qed.

  Definition new_order cfg (d : provider F) (i0 : nat) (sigs : list (option direction)) (x : option direction) : list order :=
    if sc_on_close cfg then order_at (p_close d) (i0 + length sigs) x
    else order_at (p_open d) (i0 + length sigs) (last sigs None).

  Lemma last_nth {A} (l : list A) a : last l a = nth (length l - 1) l a.
  Proof.
    destruct l as [|b l _] using rev_ind; [reflexivity|]. rewrite last_last, app_length, app_nth2 by (cbn; lia).
    replace (length l + length [b] - 1 - length l)%nat with 0%nat by (cbn; lia). reflexivity.
  Qed.

  Lemma orders_snoc cfg d i0 sigs x :
    orders cfg d i0 (sigs ++ [x]) = orders cfg d i0 sigs ++ new_order cfg d i0 sigs x.
  Proof.
    unfold orders, new_order. rewrite app_length. cbn [length]. destruct (sc_on_close cfg).
    - rewrite Nat.add_1_r, seq_S, flat_map_snoc. cbn [Nat.add]. f_equal.
      + apply flat_map_ext_in. intros k Hk. apply in_seq in Hk. rewrite app_nth1 by lia. reflexivity.
      + rewrite app_nth2, Nat.sub_diag by lia. reflexivity.
    - rewrite Nat.add_sub. destruct sigs as [|a sg] eqn:E0; [reflexivity|]. rewrite <- E0 in *.
      assert (L : (length sigs = S (length sigs - 1))%nat) by (rewrite E0; cbn; lia).
      rewrite L at 1. rewrite seq_S, flat_map_snoc. cbn [Nat.add]. f_equal.
      + apply flat_map_ext_in. intros k Hk. apply in_seq in Hk. rewrite app_nth1 by lia. reflexivity.
      + rewrite app_nth1 by lia. rewrite last_nth. f_equal. lia.
  Qed.

  Definition pos_at cfg (d : provider F) i0 sigs := book cfg (orders cfg d i0 sigs).

  Lemma pos_at_snoc cfg d i0 sigs x :
    pos_at cfg d i0 (sigs ++ [x]) =
    match new_order cfg d i0 sigs x with [] => pos_at cfg d i0 sigs | o :: _ => place cfg (pos_at cfg d i0 sigs) o end.
  Proof.
    unfold pos_at, book. rewrite orders_snoc, fold_left_app. unfold new_order, order_at.
    destruct (sc_on_close cfg); [destruct x|destruct (last sigs None)]; reflexivity.
  Qed.

  Record tracks cfg (d : provider F) i0 (sigs : list (option direction)) (s : strategy F) : Prop := {
    tr_cfg : s_config s = cfg;
    tr_trades : s_trades s = map as_trade (pos_at cfg d i0 sigs);
    tr_pending : s_unfilled s = if sc_on_close cfg then None else last sigs None;
    tr_tally : tallied (pos_at cfg d i0 sigs) (s_metrics s);
    tr_in : always_in cfg (pos_at cfg d i0 sigs);
    tr_equity : sm_equity (s_metrics s) =
       match sigs with [] => sc_capital cfg
       | _ => sc_capital cfg + sm_net (s_metrics s) + sm_open (s_metrics s) end;
    tr_open : sigs <> [] -> sm_open (s_metrics s) = open_gain (pos_at cfg d i0 sigs) (quote (p_close d) (i0 + length sigs - 1))
  }.

  Lemma tracks_new cfg d i0 : tracks cfg d i0 [] (strategy_new cfg).
  Proof.
    assert (E : pos_at cfg d i0 [] = []) by (unfold pos_at, orders; destruct (sc_on_close cfg); reflexivity).
    split; rewrite ?E; try reflexivity.
    all: try congruence.
    all: try (cbn; destruct (sc_on_close cfg); reflexivity).
    all: try (intros _ p H; discriminate).
    all: split; reflexivity.
  Qed.

  (** Marking to market. *)
  Lemma mark_spec ps m (close : option F) cap :
    tallied ps m ->
    let r := (m0 <- match split_last (map as_trade ps) with
         | Some (_, last) =>
             if t_closed last then Ok m
             else px <- unwrap close ;; p <- trade_cur_pnl last px ;; Ok (metrics_set_open m p)
         | None => Ok m
         end ;;
      Ok (metrics_set_equity m0 (cap + sm_net m0 + sm_open m0))) in
    (forall m', r = Ok m' ->
      tallied ps m' /\ sm_equity m' = cap + sm_net m' + sm_open m' /\
      sm_open m' = open_gain ps (match close with Some x => x | None => fZ 0 end)) /\
    (is_some close = true -> exists m', r = Ok m').
  Proof.
    intros T. cbn zeta. rewrite split_last_newest, newest_map. unfold open_gain.
    pose proof T as T0. destruct T0.
    destruct (newest ps) as [p|] eqn:N; cbn [option_map].
    - change (t_closed (as_trade p)) with (pos_closed p). destruct (pos_closed p) eqn:C.
      + cbn [rbind]. split; [|intros _; eexists; reflexivity]. intros m' E; injection E as <-. cbn.
        split; [|split; [reflexivity|apply ta_flat0; reflexivity]].
        split; cbn; auto.
      + destruct close as [x|]; cbn [unwrap rbind is_some]; [|split; [discriminate|discriminate]].
        unfold trade_cur_pnl; cbn [t_fill t_entry_price as_trade unwrap rbind t_dir].
        change (trade_pnl (pos_size p) (snd (pos_in p)) x (dir_eqb (pos_dir p) Long)) with
          ((x - snd (pos_in p)) * pos_size p * (if dir_eqb (pos_dir p) Long then fZ 1 else fZ (-1))).
        rewrite dir_eqb_sign. fold (gain p x). split; [|intros _; eexists; reflexivity].
        intros m' E; injection E as <-. cbn. split; [|split; reflexivity].
        split; cbn; auto. rewrite N, C. discriminate.
    - cbn [rbind]. split; [|intros _; eexists; reflexivity]. intros m' E; injection E as <-. cbn.
      split; [|split; [reflexivity|apply ta_flat0; reflexivity]].
      split; cbn; auto.
  Qed.

  Definition event (f : sconfig F -> list (position F) -> order -> option (position F)) cfg (d : provider F) i0 sigs x : option (trade F) :=
    match new_order cfg d i0 sigs x with
    | [] => None
    | o :: _ => option_map as_trade (f cfg (pos_at cfg d i0 sigs) o)
    end.

  Lemma bar_quote (v : list (option F)) i p : vget v i = Ok p -> quote v i = match p with Some x => x | None => fZ 0 end.
  Proof.
    unfold vget, quote. destruct (nth_error v i) as [q|] eqn:E; [|discriminate]. cbn. intros H; injection H as ->. destruct p; reflexivity.
  Qed.

  Lemma step_tracks cfg c sigs s x : tracks cfg (c_data c) (c_index c) sigs s ->
    let c' := ctx_at c (length sigs) in let d := c_data c in let i0 := c_index c in
    (forall s', strategy_step c' s x = Ok (s', tt) ->
      tracks cfg d i0 (sigs ++ [x]) s' /\
      s_on_entry s' = event entry_of cfg d i0 sigs x /\ s_on_exit s' = event exit_of cfg d i0 sigs x) /\
    ((exists o, nth_error (p_open d) (i0 + length sigs) = Some (Some o)) ->
     (exists o, nth_error (p_close d) (i0 + length sigs) = Some (Some o)) ->
     exists s', strategy_step c' s x = Ok (s', tt)).
  Proof.
    intros T. cbn zeta. destruct T.
    unfold strategy_step. rewrite tr_cfg0, tr_trades0, ctx_at_index.
    unfold bar_open, bar_close. rewrite ctx_at_data, ctx_at_index.
    set (d := c_data c) in *. set (i0 := c_index c) in *. set (i := (i0 + length sigs)%nat).
    set (ps := pos_at cfg d i0 sigs) in *.
    destruct (vget (p_open d) i) as [op|] eqn:OP.
    2:{ cbn. split; [discriminate|]. intros [o Ho] _. unfold vget in OP. rewrite Ho in OP. discriminate. }
    destruct (vget (p_close d) i) as [cl|] eqn:CL.
    2:{ cbn. split; [discriminate|]. intros _ [o Ho]. unfold vget in CL. rewrite Ho in CL. discriminate. }
    pose proof (bar_quote _ _ _ OP) as QO. pose proof (bar_quote _ _ _ CL) as QC.
    assert (SO : (exists o, nth_error (p_open d) i = Some (Some o)) -> is_some op = true).
    { intros [o Ho]. unfold vget in OP. rewrite Ho in OP. cbn in OP. injection OP as <-. reflexivity. }
    assert (SC : (exists o, nth_error (p_close d) i = Some (Some o)) -> is_some cl = true).
    { intros [o Ho]. unfold vget in CL. rewrite Ho in CL. cbn in CL. injection CL as <-. reflexivity. }
    cbn [rbind].
    set (unf := if sc_on_close cfg then x else s_unfilled s).
    set (pr := if sc_on_close cfg then cl else op).
    assert (NO : new_order cfg d i0 sigs x = match unf with Some dd => [(i, match pr with Some y => y | None => fZ 0 end, dd)] | None => [] end).
    { unfold new_order, unf, pr. rewrite tr_pending0. fold i. destruct (sc_on_close cfg); unfold order_at; [rewrite QC|rewrite QO]; reflexivity. }
    assert (PE : forall unf', (if sc_on_close cfg then @None direction else x) = unf' ->
       unf' = if sc_on_close cfg then None else last (sigs ++ [x]) None).
    { intros u <-. destruct (sc_on_close cfg); [reflexivity|]. rewrite last_last. reflexivity. }
    assert (NE : sigs ++ [x] <> []) by (intros E; apply app_eq_nil in E; destruct E; discriminate).
    assert (LI : (i0 + length (sigs ++ [x]) - 1 = i)%nat) by (rewrite app_length; cbn; unfold i; lia).
    assert (EQ : forall m', match sigs ++ [x] with [] => sc_capital cfg | _ => sc_capital cfg + sm_net m' + sm_open m' end
              = sc_capital cfg + sm_net m' + sm_open m') by (intros; destruct sigs; reflexivity).
    (* finishing a step from the filled book *)
    assert (FIN : forall ps' m en ex, ps' = pos_at cfg d i0 (sigs ++ [x]) -> tallied ps' m -> always_in cfg ps' ->
       en = event entry_of cfg d i0 sigs x -> ex = event exit_of cfg d i0 sigs x ->
       let r := (m0 <- match split_last (map as_trade ps') with
         | Some (_, last) =>
             if t_closed last then Ok m
             else px <- unwrap cl ;; p <- trade_cur_pnl last px ;; Ok (metrics_set_open m p)
         | None => Ok m
         end ;;
         Ok (mkStrategy cfg (map as_trade ps') (if sc_on_close cfg then None else x) en ex
               (metrics_set_equity m0 (sc_capital cfg + sm_net m0 + sm_open m0)), tt)) in
       (forall s', r = Ok (s', tt) ->
          tracks cfg d i0 (sigs ++ [x]) s' /\ s_on_entry s' = event entry_of cfg d i0 sigs x /\
          s_on_exit s' = event exit_of cfg d i0 sigs x) /\
       (is_some cl = true -> exists s', r = Ok (s', tt))).
    { intros ps' m en ex Eps Tm Ai Een Eex. cbn zeta.
      destruct (mark_spec _ _ cl (sc_capital cfg) Tm) as [M1 M2]. cbn zeta in M1, M2.
      destruct (match split_last (map as_trade ps') with
         | Some (_, last) =>
             if t_closed last then Ok m
             else px <- unwrap cl ;; p <- trade_cur_pnl last px ;; Ok (metrics_set_open m p)
         | None => Ok m
         end) as [m0|] eqn:EM; cbn [rbind] in *.
      2:{ split; [discriminate|]. intros H. destruct (M2 H) as [m' E]; discriminate. }
      split; [|intros _; eexists; reflexivity].
      intros s' E; injection E as <-. destruct (M1 _ eq_refl) as (T' & Eeq & Eop).
      cbn [s_on_entry s_on_exit]. split; [|split; assumption]. subst ps'.
      split; cbn [s_config s_trades s_unfilled s_metrics]; auto.
      - rewrite EQ. exact Eeq.
      - intros _. rewrite LI, QC. exact Eop. }
    pose proof (pos_at_snoc cfg d i0 sigs x) as PSN.
    unfold event. unfold event in FIN. rewrite NO in *. fold ps in PSN, FIN |- *.
    destruct unf as [dd|].
    - destruct pr as [y|] eqn:PR.
      + destruct (fill_spec _ _ _ i y dd tr_in0 tr_tally0) as (FS & FT & FA). cbn zeta in FS.
        fold i. fold pr. try rewrite PR. rewrite FS. cbn [rbind]. 
        destruct (FIN (place cfg ps (i, y, dd)) _ _ _ (eq_sym PSN) FT FA eq_refl eq_refl) as [G1 G2].
        cbn zeta in G1, G2.
        destruct (sc_on_close cfg) eqn:SCC; (split; [exact G1|intros _ H; apply G2, SC, H]).
      + fold i. fold pr. try rewrite PR.
        destruct (strategy_fill cfg (map as_trade ps) (s_metrics s) i None dd) as [r|] eqn:FN; cbn [rbind].
        * destruct (fill_none _ _ _ _ _ _ tr_in0 FN) as [[-> NOP]|(tr & -> & TC & TE)].
          -- destruct (NOP (fZ 0)) as (P1 & P2 & P3). cbn [rbind].
             rewrite P1 in PSN. rewrite P2, P3 in *. cbn [option_map] in *.
             destruct (FIN ps _ None None (eq_sym PSN) tr_tally0 tr_in0 eq_refl eq_refl) as [G1 G2].
             cbn zeta in G1, G2.
             destruct (sc_on_close cfg) eqn:SCC; (split; [exact G1|intros _ H; apply G2, SC, H]).
          -- cbn [rbind]. rewrite split_last_newest, newest_snoc. cbn [option_map]. rewrite TC.
             unfold trade_cur_pnl. rewrite TE. 
             split.
             ++ intros s'. destruct (unwrap cl); cbn [rbind]; [|discriminate]. destruct (unwrap (t_fill tr)); discriminate.
             ++ intros HO HC. apply SO in HO. apply SC in HC. unfold pr in PR. destruct (sc_on_close cfg); subst; discriminate.
        * split; [discriminate|]. intros HO HC. apply SO in HO. apply SC in HC. unfold pr in PR. destruct (sc_on_close cfg); subst; discriminate.
    - cbn [rbind].
      destruct (FIN ps _ None None (eq_sym PSN) tr_tally0 tr_in0 eq_refl eq_refl) as [G1 G2].
      cbn zeta in G1, G2.
      destruct (sc_on_close cfg) eqn:SCC; (split; [exact G1|intros _ H; apply G2, SC, H]).
  Qed.

  (** Any history. *)
  Lemma run_tracks cfg c sigs s os : run_st strategy_step c (strategy_new cfg) sigs = Ok (s, os) ->
    tracks cfg (c_data c) (c_index c) sigs s.
  Proof.
    revert s os. induction sigs as [|x sigs IH] using rev_ind; intros s os.
    - cbn. intros E; injection E as <- <-. apply tracks_new.
    - rewrite run_st_app. destruct (run_st strategy_step c (strategy_new cfg) sigs) as [[s1 o1]|] eqn:R; [|discriminate].
      cbn [rbind run_st]. destruct (strategy_step (ctx_at c (length sigs)) s1 x) as [[s2 []]|] eqn:ST; [|discriminate].
      cbn [rbind]. intros E; injection E as <- <-.
      destruct (step_tracks _ _ _ _ x (IH _ _ eq_refl)) as [G _]. apply G; exact ST.
  Qed.
  Lemma run_split {St I O} (step : ctx F -> St -> I -> res (St * O)) c s0 sigs x s os :
    run_st step c s0 (sigs ++ [x]) = Ok (s, os) ->
    exists s1 o1 o, run_st step c s0 sigs = Ok (s1, o1) /\ step (ctx_at c (length sigs)) s1 x = Ok (s, o).
  Proof.
    rewrite run_st_app. destruct (run_st step c s0 sigs) as [[s1 o1]|] eqn:R; [|discriminate].
    cbn [rbind run_st]. destruct (step (ctx_at c (length sigs)) s1 x) as [[s2 o]|] eqn:ST; [|discriminate].
    cbn [rbind]. intros E; injection E as <- <-. exists s1, o1, o. split; [reflexivity|exact ST].
  Qed.
  Lemma run_events cfg c sigs x s os : run_st strategy_step c (strategy_new cfg) (sigs ++ [x]) = Ok (s, os) ->
    s_on_entry s = event entry_of cfg (c_data c) (c_index c) sigs x /\
    s_on_exit s = event exit_of cfg (c_data c) (c_index c) sigs x.
  Proof.
    intros R. destruct (run_split _ _ _ _ _ _ _ R) as (s1 & o1 & [] & R1 & ST).
    destruct (step_tracks _ _ _ _ x (run_tracks _ _ _ _ _ R1)) as [G _]. apply G in ST. tauto.
  Qed.
  Lemma run_total cfg c sigs : priced c (length sigs) -> exists s os, run_st strategy_step c (strategy_new cfg) sigs = Ok (s, os).
  Proof.
    induction sigs as [|x sigs IH] using rev_ind; intros P; [do 2 eexists; reflexivity|].
    rewrite app_length in P; cbn [length] in P.
    destruct IH as (s & os & R); [intros k Hk; apply P; lia|].
    rewrite run_st_app, R. cbn [rbind run_st].
    destruct (step_tracks _ _ _ _ x (run_tracks _ _ _ _ _ R)) as [_ G].
    destruct (P (length sigs)) as [HO HC]; [lia|].
    destruct (G HO HC) as [s' E]. rewrite E. cbn. do 2 eexists; reflexivity.
  Qed.
End PStrategy.
