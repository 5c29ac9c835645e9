(** * PropUnits: C108, a backtest and its reports in other units.

    Prices multiplied by [p] and trade sizes by [z] multiply every amount of
    money by [p * z] and leave every ratio as it is.  Exact arithmetic, all
    values (infinite and undefined ones included). *)
From Verif Require Export PropMetrics2.
Local Open Scope R_scope.

(** ** Scaling by a positive factor *)
Lemma rsgn_scale k x : 0 < k -> rsgn (k * x) = rsgn x.
Proof.
  intros K. unfold rsgn. destruct (Rlt_dec 0 (k * x)), (Rlt_dec 0 x); try reflexivity; try (exfalso; nra).
  destruct (Rlt_dec (k * x) 0), (Rlt_dec x 0); try reflexivity; exfalso; nra.
Qed.
Lemma rsgn_pos k : 0 < k -> rsgn k = 1%Z.
Proof. intros K. unfold rsgn. destruct (Rlt_dec 0 k); [reflexivity|contradiction]. Qed.
Lemma kx_eq k v : 0 < k -> kx k v = match v with Fin r => Fin (k * r) | _ => v end.
Proof. intros K. unfold kx. destruct v; cbn; rewrite ?(rsgn_pos k K); reflexivity. Qed.
Lemma kx_1 v : kx 1 v = v.
Proof. rewrite kx_eq by lra. destruct v; [f_equal; ring|reflexivity..]. Qed.
Lemma kx_kx a b v : 0 < a -> 0 < b -> kx a (kx b v) = kx (a * b) v.
Proof. intros A B. rewrite !kx_eq by nra. destruct v; [f_equal; ring|reflexivity..]. Qed.
Lemma kx_0 k : kx k (fZ 0) = fZ 0.
Proof. apply (f_equal Fin). cbn. ring. Qed.
Lemma kx_add k a b : 0 < k -> kx k (fadd a b) = fadd (kx k a) (kx k b).
Proof. intros K. rewrite !kx_eq by exact K. destruct a, b; cbn; try reflexivity. f_equal; ring. Qed.
Lemma kx_sub k a b : 0 < k -> kx k (fsub a b) = fsub (kx k a) (kx k b).
Proof. intros K. rewrite !kx_eq by exact K. destruct a, b; cbn; try reflexivity. f_equal; ring. Qed.
Lemma kx_mul p z a b : 0 < p -> 0 < z -> kx (p * z) (fmul a b) = fmul (kx p a) (kx z b).
Proof.
  intros P Z. rewrite !kx_eq by nra. destruct a, b; cbn; rewrite ?(rsgn_scale p), ?(rsgn_scale z) by assumption; try reflexivity.
  - f_equal; ring.
  - destruct (rsgn r); reflexivity.
  - destruct (rsgn r); reflexivity.
  - destruct (rsgn r); reflexivity.
  - destruct (rsgn r); reflexivity.
Qed.
Lemma kx_div p z a b : 0 < p -> 0 < z -> kx (p / z) (fdiv a b) = fdiv (kx p a) (kx z b).
Proof.
  intros P Z. assert (Q : 0 < p / z) by (apply Rdiv_lt_0_compat; assumption). rewrite !kx_eq by assumption.
  assert (NZ : forall y, y <> 0 -> z * y <> 0).
  { intros y Y M. apply Rmult_integral in M. lra. }
  destruct a as [x| | |], b as [y| | |]; cbn; try reflexivity.
  - destruct (Req_EM_T y 0) as [->|N]; [destruct (Req_EM_T (z * 0) 0); [|exfalso; lra]|destruct (Req_EM_T (z * y) 0) as [M|M]; [destruct (NZ y N M)|]].
    + rewrite rsgn_scale by exact P. destruct (rsgn x); reflexivity.
    + f_equal. field. split; lra.
  - f_equal; ring.
  - f_equal; ring.
  - destruct (Req_EM_T y 0) as [->|N]; [destruct (Req_EM_T (z * 0) 0); [reflexivity|exfalso; lra]|destruct (Req_EM_T (z * y) 0) as [M|M]; [destruct (NZ y N M)|]].
    rewrite rsgn_scale by exact Z. destruct (rsgn y); reflexivity.
  - destruct (Req_EM_T y 0) as [->|N]; [destruct (Req_EM_T (z * 0) 0); [reflexivity|exfalso; lra]|destruct (Req_EM_T (z * y) 0) as [M|M]; [destruct (NZ y N M)|]].
    rewrite rsgn_scale by exact Z. destruct (rsgn y); reflexivity.
Qed.
(** A quotient of two amounts in the same unit has none. *)
Lemma kx_ratio k a b : 0 < k -> fdiv (kx k a) (kx k b) = fdiv a b.
Proof.
  intros K. rewrite <- kx_div by exact K. replace (k / k) with 1 by (field; lra). apply kx_1.
Qed.
Lemma kx_over k a b : 0 < k -> kx k (fdiv a b) = fdiv (kx k a) b.
Proof. intros K. rewrite <- (kx_1 b) at 2. rewrite <- kx_div by lra. f_equal. field. Qed.
Lemma kx_lt k a b : 0 < k -> fltb (kx k a) (kx k b) = fltb a b.
Proof.
  intros K. rewrite !kx_eq by exact K. destruct a as [x| | |], b as [y| | |]; cbn; try reflexivity.
  destruct (Rltb_spec (k * x) (k * y)), (Rltb_spec x y); try reflexivity; exfalso; nra.
Qed.
Lemma kx_nan k a : 0 < k -> fisnan (kx k a) = fisnan a.
Proof. intros K. rewrite kx_eq by exact K. destruct a; reflexivity. Qed.
Lemma kx_le k a b : 0 < k -> fleb (kx k a) (kx k b) = fleb a b.
Proof.
  intros K. pose proof (kx_lt k b a K) as L. pose proof (kx_nan k a K) as N1. pose proof (kx_nan k b K) as N2.
  cbn in *. unfold xleb. rewrite L, N1, N2. reflexivity.
Qed.
Lemma kx_feq k a b : 0 < k -> feqb (kx k a) (kx k b) = feqb a b.
Proof.
  intros K. pose proof (kx_le k a b K) as L1. pose proof (kx_le k b a K) as L2. cbn in *. unfold xeqb. rewrite L1, L2. reflexivity.
Qed.
Lemma kx_max k a b : 0 < k -> fmax (kx k a) (kx k b) = kx k (fmax a b).
Proof. intros K. unfold fmax. rewrite !kx_nan, kx_lt by exact K. destruct (fisnan a), (fisnan b), (fltb a b); reflexivity. Qed.
Lemma kx_min k a b : 0 < k -> fmin (kx k a) (kx k b) = kx k (fmin a b).
Proof. intros K. unfold fmin. rewrite !kx_nan, kx_lt by exact K. destruct (fisnan a), (fisnan b), (fltb b a); reflexivity. Qed.
Lemma kx_absx k a : 0 < k -> fabs (kx k a) = kx k (fabs a).
Proof.
  intros K. rewrite !kx_eq by exact K. destruct a; cbn; try reflexivity. rewrite Rabs_mult, (Rabs_right k) by lra. reflexivity.
Qed.
Lemma kx_sqrt k a : 0 < k -> fsqrt (kx (k * k) a) = kx k (fsqrt a).
Proof.
  intros K. rewrite !kx_eq by nra. destruct a as [x| | |]; cbn; try reflexivity.
  assert (KK : 0 < k * k) by nra. destruct (Rlt_dec (k * k * x) 0) as [H|H], (Rlt_dec x 0) as [H'|H']; try reflexivity; try (exfalso; nra).
  f_equal. rewrite sqrt_mult by lra. rewrite sqrt_square by lra. reflexivity.
Qed.
Lemma kx_lt0 k a : 0 < k -> fltb (kx k a) (fZ 0) = fltb a (fZ 0).
Proof. intros K. rewrite <- (kx_0 k) at 1. apply kx_lt, K. Qed.
Lemma kx_gt0 k a : 0 < k -> fltb (fZ 0) (kx k a) = fltb (fZ 0) a.
Proof. intros K. rewrite <- (kx_0 k) at 1. apply kx_lt, K. Qed.
Lemma kx_le0 k a : 0 < k -> fleb (kx k a) (fZ 0) = fleb a (fZ 0).
Proof. intros K. rewrite <- (kx_0 k) at 1. apply kx_le, K. Qed.
Lemma kx_feq0 k a : 0 < k -> feqb (kx k a) (fZ 0) = feqb a (fZ 0).
Proof. intros K. rewrite <- (kx_0 k) at 1. apply kx_feq, K. Qed.
Lemma kx_max0 k a : 0 < k -> fmax (fZ 0) (kx k a) = kx k (fmax (fZ 0) a).
Proof. intros K. rewrite <- (kx_0 k) at 1. apply kx_max, K. Qed.
Lemma kx_min0 k a : 0 < k -> fmin (fZ 0) (kx k a) = kx k (fmin (fZ 0) a).
Proof. intros K. rewrite <- (kx_0 k) at 1. apply kx_min, K. Qed.
Lemma kx_sum k l : 0 < k -> fsum (map (kx k) l) = kx k (fsum l).
Proof.
  intros K. unfold fsum. assert (G : forall a, fold_left (fun acc x : xr => fadd acc x) (map (kx k) l) (kx k a) = kx k (fold_left (fun acc x : xr => fadd acc x) l a)).
  { induction l as [|x l IH]; intros a; cbn [map fold_left]; [reflexivity|]. rewrite <- kx_add by exact K. apply IH. }
  rewrite <- G, kx_0. reflexivity.
Qed.

(** ** Runs *)
Lemma run_mapped {S S' I O O' : Type} (step : ctx xr -> S -> I -> res (S * O)) (step' : ctx xr -> S' -> I -> res (S' * O'))
    (chi : ctx xr -> ctx xr) (phi : S -> S') (psi : O -> O') :
  (forall c, ctx_advance (chi c) = chi (ctx_advance c)) ->
  (forall c s x, step' (chi c) (phi s) x = rmap (fun so => (phi (fst so), psi (snd so))) (step c s x)) ->
  forall xs c s, run_st step' (chi c) (phi s) xs = rmap (fun so => (phi (fst so), map psi (snd so))) (run_st step c s xs).
Proof.
  intros CA ST xs. induction xs as [|x xs IH]; intros c s; [reflexivity|]. cbn [run_st].
  rewrite ST. destruct (step c s x) as [[s1 o]|]; [|reflexivity]. cbn [rmap rbind fst snd]. rewrite CA, IH.
  destruct (run_st step (ctx_advance c) s1 xs) as [[s2 os]|]; reflexivity.
Qed.

(** ** The strategy *)
Section Units.
  Variables (p z : R).
  Hypothesis P0 : 0 < p.
  Hypothesis Z0 : 0 < z.
  Notation k := (p * z).
  Let K0 : 0 < k. Proof. nra. Qed.

  (** Market data, configuration, trades and figures in the new units. *)
  Definition in_units_ctx (c : ctx xr) : ctx xr := reprice_ctx (kx p) c.
  Definition in_units_config (cfg : sconfig xr) : sconfig xr := with_capital cfg (kx k (sc_capital cfg)).
  Definition in_units_trade (t : trade xr) : trade xr := reprice_trade (kx p) z k t.
  Definition in_units_metrics (m : smetrics xr) : smetrics xr :=
    mkSMetrics (kx k (sm_equity m)) (kx k (sm_net m)) (kx k (sm_open m)) (kx k (sm_gross_profit m)) (kx k (sm_gross_loss m))
      (sm_closed m) (sm_winning m) (sm_losing m) (kx k (sm_long_net m)) (kx k (sm_short_net m)).
  Definition in_units (s : strategy xr) : strategy xr :=
    mkStrategy (in_units_config (s_config s)) (map in_units_trade (s_trades s)) (s_unfilled s)
      (option_map in_units_trade (s_on_entry s)) (option_map in_units_trade (s_on_exit s)) (in_units_metrics (s_metrics s)).

  Lemma split_last_map {A B : Type} (f : A -> B) l : split_last (map f l) = option_map (fun '(o, x) => (map f o, f x)) (split_last l).
  Proof. unfold split_last. rewrite <- map_rev. destruct (rev l) as [|x t]; [reflexivity|]. cbn [map option_map]. rewrite map_rev. reflexivity. Qed.

  Lemma pnl_units t x : trade_cur_pnl (in_units_trade t) (kx p x) = rmap (kx k) (trade_cur_pnl t x).
  Proof.
    unfold trade_cur_pnl. cbn [in_units_trade reprice_trade t_fill t_entry_price t_dir].
    destruct (t_fill t) as [f|]; [|reflexivity]. destruct (t_entry_price t) as [e|]; [|reflexivity]. cbn [option_map unwrap rbind rmap].
    f_equal. unfold trade_pnl. rewrite <- kx_sub, <- kx_mul by assumption.
    set (a := fmul (fsub x e) f). destruct (dir_eqb (t_dir t) Long).
    - rewrite <- (kx_1 (fZ 1)) at 1. rewrite <- kx_mul by (first [exact K0|lra]). f_equal. ring.
    - rewrite <- (kx_1 (fZ (-1))) at 1. rewrite <- kx_mul by (first [exact K0|lra]). f_equal. ring.
  Qed.
  Lemma fill_units e x : fill_size (kx k e) (kx p x) = kx z (fill_size e x).
  Proof.
    unfold fill_size. rewrite !kx_le0 by assumption. destruct (fleb e (fZ 0) || fleb x (fZ 0)); [symmetry; apply kx_0|].
    rewrite <- kx_div by assumption. f_equal. field. lra.
  Qed.
  Lemma close_units m d x : metrics_close (in_units_metrics m) d (kx k x) = in_units_metrics (metrics_close m d x).
  Proof.
    unfold metrics_close, in_units_metrics, fgtb.
    cbn [sm_equity sm_net sm_open sm_gross_profit sm_gross_loss sm_closed sm_winning sm_losing sm_long_net sm_short_net].
    rewrite kx_gt0, kx_lt0, kx_0, kx_absx by exact K0. rewrite <- !kx_add by exact K0.
    destruct (fltb (fZ 0) x), (fltb x (fZ 0)), (dir_eqb d Long); reflexivity.
  Qed.

  Lemma new_trade_units d tick pr f : in_units_trade (mkTrade d false (Some tick) pr None None (Some f) (fZ 0)) =
    mkTrade d false (Some tick) (option_map (kx p) pr) None None (Some (kx z f)) (fZ 0).
  Proof.
    unfold in_units_trade, reprice_trade. cbn [t_dir t_closed t_entry_tick t_entry_price t_exit_tick t_exit_price t_fill t_pnl option_map].
    rewrite kx_0. reflexivity.
  Qed.

  (** Either trades are sized by equity, or the size unit stays the same. *)
  Definition sized (cfg : sconfig xr) : Prop := sc_with_equity cfg = true \/ z = 1.

  Lemma fill_step_units cfg ts m tick price d : sized cfg ->
    strategy_fill (in_units_config cfg) (map in_units_trade ts) (in_units_metrics m) tick (option_map (kx p) price) d =
    rmap (fun r => match r with (ts, m, en, ex) => (map in_units_trade ts, in_units_metrics m, option_map in_units_trade en, option_map in_units_trade ex) end)
      (strategy_fill cfg ts m tick price d).
  Proof.
    intros SZ. unfold strategy_fill. rewrite split_last_map.
    (* the part after the closing *)
    set (open_part := fun (cf : sconfig xr) (pr : option xr) (r : list (trade xr) * smetrics xr * option (trade xr) * bool) =>
      let '(trades, m, on_exit, create) := r in
      if create then
        fill <- (if sc_with_equity cf then px <- unwrap pr ;; Ok (fill_size (fadd (fadd (sc_capital cf) (sm_net m)) (sm_open m)) px) else Ok (fZ 1)) ;;
        let t := mkTrade d false (Some tick) pr None None (Some fill) (fZ 0) in
        Ok (trades ++ [t], m, Some t, on_exit)
      else Ok (trades, m, None, on_exit)).
    assert (OP : forall ts m ex cr, open_part (in_units_config cfg) (option_map (kx p) price) (map in_units_trade ts, in_units_metrics m, option_map in_units_trade ex, cr) =
      rmap (fun r => match r with (ts, m, en, ex) => (map in_units_trade ts, in_units_metrics m, option_map in_units_trade en, option_map in_units_trade ex) end)
        (open_part cfg price (ts, m, ex, cr))).
    { intros ts0 m0 ex cr. unfold open_part. destruct cr; [|reflexivity].
      cbn [in_units_config with_capital sc_with_equity sc_capital in_units_metrics sm_net sm_open].
      rewrite <- !kx_add by exact K0. destruct SZ as [SZ|SZ].
      - rewrite SZ. destruct price as [px|]; [|reflexivity]. cbn [option_map unwrap rbind]. rewrite fill_units. cbn [rbind rmap].
        rewrite map_app. cbn [map option_map]. rewrite new_trade_units. reflexivity.
      - destruct (sc_with_equity cfg).
        + destruct price as [px|]; [|reflexivity]. cbn [option_map unwrap rbind]. rewrite fill_units. cbn [rbind rmap].
          rewrite map_app. cbn [map option_map]. rewrite new_trade_units. reflexivity.
        + cbn [rbind rmap]. rewrite map_app. cbn [map option_map]. rewrite new_trade_units.
          assert (E : kx z (fZ 1) = fZ 1) by (rewrite SZ; apply kx_1). rewrite E. reflexivity. }
    destruct (split_last ts) as [[older last]|]; cbn [option_map].
    2:{ cbn [rbind]. exact (OP ts m None true). }
    cbn [in_units_trade reprice_trade t_dir t_closed t_entry_tick t_entry_price t_fill t_pnl in_units_config with_capital sc_continuous].
    set (same := dir_eqb (t_dir last) d). set (cl := negb same && negb (t_closed last)).
    set (cr := if sc_continuous cfg then negb same && cl else t_closed last && (same || negb same && negb cl)).
    destruct cl.
    2:{ cbn [rbind]. exact (OP ts m None cr). }
    destruct price as [px|]; [|reflexivity]. cbn [option_map unwrap rbind].
    set (l0 := mkTrade (t_dir last) true (t_entry_tick last) (t_entry_price last) (Some tick) (Some px) (t_fill last) (t_pnl last)).
    change (mkTrade (t_dir last) true (t_entry_tick last) (option_map (kx p) (t_entry_price last)) (Some tick) (Some (kx p px)) (option_map (kx z) (t_fill last)) (kx k (t_pnl last)))
      with (in_units_trade l0).
    rewrite pnl_units. destruct (trade_cur_pnl l0 px) as [g|]; [|reflexivity]. cbn [rbind rmap]. rewrite close_units.
    set (l1 := mkTrade (t_dir l0) true (t_entry_tick l0) (t_entry_price l0) (Some tick) (Some px) (t_fill l0) g).
    match goal with |- context [map in_units_trade older ++ [?t]] => change t with (in_units_trade l1) end.
    change [in_units_trade l1] with (map in_units_trade [l1]). rewrite <- map_app.
    exact (OP (older ++ [l1]) (metrics_close m (t_dir l1) g) (Some l1) cr).
  Qed.

  Lemma vget_map {A : Type} (f : A -> A) (v : list (option A)) i : vget (map (option_map f) v) i = rmap (option_map f) (vget v i).
  Proof. unfold vget. rewrite nth_error_map. destruct (nth_error v i); reflexivity. Qed.

  Lemma strategy_units c s x : sized (s_config s) ->
    strategy_step (in_units_ctx c) (in_units s) x = rmap (fun so => (in_units (fst so), snd so)) (strategy_step c s x).
  Proof.
    intros SZ. unfold strategy_step, bar_open, bar_close. cbn [in_units_ctx reprice_ctx c_data c_index reprice p_open p_close].
    rewrite !vget_map. destruct (vget (p_open (c_data c)) (c_index c)) as [o|]; [|reflexivity]. cbn [rmap rbind].
    destruct (vget (p_close (c_data c)) (c_index c)) as [cl|]; [|reflexivity]. cbn [rmap rbind].
    cbn [in_units s_config s_trades s_unfilled s_metrics]. cbn [in_units_config with_capital sc_on_close sc_capital].
    set (rest := fun (cf : sconfig xr) (clp : option xr) (uf : option direction) (r : list (trade xr) * smetrics xr * option (trade xr) * option (trade xr)) =>
      let '(trades, m, en, ex) := r in
      m1 <- match split_last trades with
            | Some (_, last) => if t_closed last then Ok m else px <- unwrap clp ;; q <- trade_cur_pnl last px ;; Ok (metrics_set_open m q)
            | None => Ok m
            end ;;
      let m2 := metrics_set_equity m1 (fadd (fadd (sc_capital cf) (sm_net m1)) (sm_open m1)) in
      Ok (mkStrategy cf trades uf en ex m2, tt)).
    assert (RS : forall uf ts m en ex,
      rest (in_units_config (s_config s)) (option_map (kx p) cl) uf (map in_units_trade ts, in_units_metrics m, option_map in_units_trade en, option_map in_units_trade ex) =
      rmap (fun so => (in_units (fst so), snd so)) (rest (s_config s) cl uf (ts, m, en, ex))).
    { intros uf ts m en ex. unfold rest. rewrite split_last_map.
      assert (E : forall m1, Ok (mkStrategy (in_units_config (s_config s)) (map in_units_trade ts) uf (option_map in_units_trade en) (option_map in_units_trade ex)
          (metrics_set_equity (in_units_metrics m1) (fadd (fadd (sc_capital (in_units_config (s_config s))) (sm_net (in_units_metrics m1))) (sm_open (in_units_metrics m1)))), tt) =
        rmap (fun so => (in_units (fst so), snd so)) (Ok (mkStrategy (s_config s) ts uf en ex
          (metrics_set_equity m1 (fadd (fadd (sc_capital (s_config s)) (sm_net m1)) (sm_open m1))), tt))).
      { intros m1. cbn [rmap fst snd]. unfold in_units, metrics_set_equity, in_units_metrics.
        cbn [s_config s_trades s_unfilled s_on_entry s_on_exit s_metrics in_units_config with_capital sc_capital sm_equity sm_net sm_open sm_gross_profit sm_gross_loss sm_closed sm_winning sm_losing sm_long_net sm_short_net].
        rewrite !kx_add by exact K0. reflexivity. }
      destruct (split_last ts) as [[older last]|]; cbn [option_map]; [|cbn [rbind]; apply E].
      change (t_closed (in_units_trade last)) with (t_closed last). destruct (t_closed last); [cbn [rbind]; apply E|].
      destruct cl as [px|]; [|reflexivity]. cbn [option_map unwrap rbind]. rewrite pnl_units.
      destruct (trade_cur_pnl last px) as [g|]; [|reflexivity]. cbn [rmap rbind]. apply (E (metrics_set_open m g)). }
    set (uf := if sc_on_close (s_config s) then x else s_unfilled s).
    destruct uf as [d|] eqn:UF.
    - assert (PR : (if sc_on_close (s_config s) then option_map (kx p) cl else option_map (kx p) o) = option_map (kx p) (if sc_on_close (s_config s) then cl else o))
        by (destruct (sc_on_close (s_config s)); reflexivity).
      rewrite PR. rewrite fill_step_units by exact SZ.
      destruct (strategy_fill (s_config s) (s_trades s) (s_metrics s) (c_index c) (if sc_on_close (s_config s) then cl else o) d) as [[[[ts m] en] ex]|]; [|reflexivity].
      cbn [rmap rbind]. exact (RS (if sc_on_close (s_config s) then None else x) ts m en ex).
    - cbn [rbind]. exact (RS (if sc_on_close (s_config s) then None else x) (s_trades s) (s_metrics s) None None).
  Qed.
  Lemma strategy_keeps_config (c : ctx xr) s x s' o : strategy_step c s x = Ok (s', o) -> s_config s' = s_config s.
  Proof.
    unfold strategy_step. destruct (bar_open c); [|discriminate]. cbn [rbind]. destruct (bar_close c); [|discriminate]. cbn [rbind].
    match goal with |- rbind ?r _ = _ -> _ => destruct r as [[[[[trs m] en] ex] un]|] end; [|discriminate]. cbn [rbind].
    match goal with |- rbind ?r _ = _ -> _ => destruct r as [m1|] end; [|discriminate]. cbn [rbind].
    intros E; injection E as <- <-. reflexivity.
  Qed.

  (** ** The equity tracker *)
  Definition in_units_equity (e : equity xr) : equity xr :=
    mkEquity (kx k (e_equity e)) (kx k (e_equity_min e)) (kx k (e_equity_max e)) (kx k (e_net e)) (kx k (e_net_min e)) (kx k (e_net_max e))
      (kx k (e_bop_min e)) (kx k (e_bop_max e)) (kx k (e_bar_min e)) (kx k (e_bar_max e)).
  Lemma equity_units c e s :
    equity_step (in_units_ctx c) (in_units_equity e) (in_units s) = rmap (fun so => (in_units_equity (fst so), snd so)) (equity_step c e s).
  Proof.
    unfold equity_step. cbn [in_units s_on_exit s_trades s_config s_metrics in_units_config with_capital sc_capital in_units_metrics sm_net sm_equity].
    rewrite split_last_map.
    set (nets := match s_on_exit s with
      | Some _ => let net := fadd (sc_capital (s_config s)) (sm_net (s_metrics s)) in (net, fmin (e_net_min e) net, fmax (e_net_max e) net)
      | None => (e_net e, e_net_min e, e_net_max e) end).
    set (nets' := match option_map in_units_trade (s_on_exit s) with
      | Some _ => let net := fadd (kx k (sc_capital (s_config s))) (kx k (sm_net (s_metrics s))) in
          (net, fmin (e_net_min (in_units_equity e)) net, fmax (e_net_max (in_units_equity e)) net)
      | None => (e_net (in_units_equity e), e_net_min (in_units_equity e), e_net_max (in_units_equity e)) end).
    assert (N : nets' = let '(a, b, d) := nets in (kx k a, kx k b, kx k d)).
    { unfold nets, nets'. destruct (s_on_exit s); cbn [option_map in_units_equity e_net e_net_min e_net_max]; [|reflexivity].
      cbn zeta. rewrite <- kx_add, kx_min, kx_max by exact K0. reflexivity. }
    rewrite N. clear N nets'. destruct nets as [[net nmin] nmax].
    assert (FIN : forall a b, Ok (mkEquity (kx k (sm_equity (s_metrics s))) (fmin (e_equity_min (in_units_equity e)) (kx k (sm_equity (s_metrics s))))
        (fmax (e_equity_max (in_units_equity e)) (kx k (sm_equity (s_metrics s)))) (kx k net) (kx k nmin) (kx k nmax) (kx k a) (kx k b) (fadd (kx k net) (kx k a)) (fadd (kx k net) (kx k b)), tt) =
      rmap (fun so => (in_units_equity (fst so), snd so)) (Ok (mkEquity (sm_equity (s_metrics s)) (fmin (e_equity_min e) (sm_equity (s_metrics s)))
        (fmax (e_equity_max e) (sm_equity (s_metrics s))) net nmin nmax a b (fadd net a) (fadd net b), tt))).
    { intros a b. cbn [rmap fst snd in_units_equity e_equity_min e_equity_max]. rewrite kx_min, kx_max, <- !kx_add by exact K0. reflexivity. }
    destruct (split_last (s_trades s)) as [[older last]|]; cbn [option_map]; [|cbn [rbind]; apply FIN].
    change (t_closed (in_units_trade last)) with (t_closed last). destruct (t_closed last); [cbn [rbind]; apply FIN|].
    unfold bar_low, bar_high. cbn [in_units_ctx reprice_ctx c_data c_index reprice p_low p_high]. rewrite !vget_map.
    destruct (vget (p_low (c_data c)) (c_index c)) as [[lo|]|]; try reflexivity. cbn [rmap rbind option_map unwrap].
    destruct (vget (p_high (c_data c)) (c_index c)) as [[hi|]|]; try reflexivity. cbn [rmap rbind option_map unwrap].
    change (t_dir (in_units_trade last)) with (t_dir last). destruct (t_dir last); rewrite !pnl_units.
    - destruct (trade_cur_pnl last lo); [|reflexivity]. cbn [rmap rbind]. destruct (trade_cur_pnl last hi); [|reflexivity]. cbn [rmap rbind]. apply FIN.
    - destruct (trade_cur_pnl last hi); [|reflexivity]. cbn [rmap rbind]. destruct (trade_cur_pnl last lo); [|reflexivity]. cbn [rmap rbind]. apply FIN.
  Qed.

  (** ** Statistics of amounts *)
  Definition in_units_mean (s : mean_st xr) : mean_st xr := mkMean (kx k (mn_sum s)) (mn_n s).
  Definition in_units_wvar (s : wvar_st xr) : wvar_st xr := mkWvar (wf_n s) (kx k (wf_mean s)) (kx (k * k) (wf_dev s)).
  Definition in_units_var (s : var_st xr) : var_st xr :=
    mkVar (va_fast s) (map (kx k) (va_cache s)) (in_units_wvar (va_welford s)) (in_units_mean (va_mean s)).
  Let KK0 : 0 < k * k. Proof. apply Rmult_lt_0_compat; exact K0. Qed.
  Lemma mean_units s v : mean_next (in_units_mean s) (kx k v) = (in_units_mean (fst (mean_next s v)), kx k (snd (mean_next s v))).
  Proof.
    unfold mean_next, in_units_mean. cbn [mn_sum mn_n fst snd]. rewrite <- kx_add, kx_over by exact K0. reflexivity.
  Qed.
  Lemma wvar_units s v : wvar_next (in_units_wvar s) (kx k v) = (in_units_wvar (fst (wvar_next s v)), kx (k * k) (snd (wvar_next s v))).
  Proof.
    unfold wvar_next, in_units_wvar. cbn [wf_n wf_mean wf_dev fst snd].
    rewrite <- kx_sub by exact K0. rewrite <- kx_over, <- kx_add, <- kx_sub by exact K0. rewrite <- kx_mul by exact K0.
    rewrite <- kx_add by exact KK0. rewrite <- kx_over by exact KK0.
    destruct (wf_n s + 1 <=? 1)%nat; [|reflexivity]. rewrite kx_0. reflexivity.
  Qed.
  Lemma var_units s v : sstdev_next (in_units_var s) (kx k v) = (in_units_var (fst (sstdev_next s v)), kx k (snd (sstdev_next s v))).
  Proof.
    unfold sstdev_next, var_next. cbn [in_units_var va_fast va_cache va_welford va_mean].
    destruct (va_fast s) eqn:FA.
    - rewrite wvar_units. destruct (wvar_next (va_welford s) v) as [w x]. cbn [fst snd]. unfold stdev_from_var.
      rewrite kx_sqrt by exact K0. unfold in_units_var. reflexivity.
    - rewrite mean_units. destruct (mean_next (va_mean s) v) as [m x]. cbn [fst snd]. unfold stdev_from_var, ic_push, ic_all.
      change (map (kx k) (va_cache s) ++ [kx k v]) with (map (kx k) (va_cache s) ++ map (kx k) [v]). rewrite <- (map_app (kx k) (va_cache s) [v]).
      assert (E : var_from_mean (map (kx k) (va_cache s ++ [v])) (kx k x) = kx (k * k) (var_from_mean (va_cache s ++ [v]) x)).
      { unfold var_from_mean. rewrite map_length, kx_over by exact KK0. f_equal. rewrite <- kx_sum by exact KK0. f_equal.
        rewrite !map_map. apply map_ext. intros y. unfold fsq. rewrite <- kx_sub, <- kx_mul by exact K0. reflexivity. }
      rewrite E, kx_sqrt by exact K0. reflexivity.
  Qed.
  Definition in_units_returns (r : returns_st xr) : returns_st xr :=
    mkReturns (kx k (r_delta r)) (kx k (r_stdev r)) (kx k (r_mean r)) (kx k (r_prev r)) (in_units_var (r_stdev_st r)) (in_units_mean (r_mean_st r)).
  Lemma returns_units r v : returns_next (in_units_returns r) (kx k v) = in_units_returns (returns_next r v).
  Proof.
    unfold returns_next. cbn [in_units_returns r_prev r_stdev_st r_mean_st]. rewrite <- kx_sub by exact K0.
    rewrite var_units, mean_units. destruct (sstdev_next (r_stdev_st r) (fsub v (r_prev r))) as [ss sd].
    destruct (mean_next (r_mean_st r) (fsub v (r_prev r))) as [ms mn]. reflexivity.
  Qed.

  (** ** The TradingView report *)
  Definition in_units_report (d : tvdata xr) : tvdata xr :=
    mkTvData (kx k (tv_net_profit d)) (tv_net_profit_percent d)
      (kx k (tv_gross_profit d)) (tv_gross_profit_percent d)
      (kx k (tv_gross_loss d)) (tv_gross_loss_percent d)
      (kx k (tv_max_run_up d)) (tv_max_run_up_percent d)
      (kx k (tv_max_drawdown d)) (tv_max_drawdown_percent d)
      (tv_sharpe d) (tv_sortino d) (tv_profit_factor d)
      (kx k (tv_open_pl d))
      (tv_closed d) (tv_winning d) (tv_losing d) (tv_percent_profitable d)
      (kx k (tv_avg_trade d)) (kx k (tv_avg_winning d)) (kx k (tv_avg_losing d)) (tv_ratio d)
      (map (kx k) (tv_net_equity_history d)) (map (kx k) (tv_max_drawdown_history d)) (map (kx k) (tv_equity_history d)).
  Definition in_units_tv (t : tvmetrics xr) : tvmetrics xr :=
    mkTv (in_units_report (tv_data t)) (kx k (tv_rfr t)) (in_units_returns (tv_returns t)) (in_units_var (tv_neg_stdev t)) (in_units_equity (tv_eqm t)).

  Lemma or0_units o : unwrap_or0 (option_map (kx k) o) = kx k (unwrap_or0 o).
  Proof. destruct o; [reflexivity|]. cbn [option_map unwrap_or0]. symmetry. apply kx_0. Qed.
  Lemma avg_units (x : xr) n : unwrap_or0 (avg_trade (kx k x) n) = kx k (unwrap_or0 (avg_trade x n)).
  Proof. rewrite <- or0_units. unfold avg_trade. destruct (n =? 0)%nat; cbn [option_map]; rewrite ?kx_over by exact K0; reflexivity. Qed.
  Lemma factor_units (a b : xr) : profit_factor (kx k a) (kx k b) = profit_factor a b.
  Proof. unfold profit_factor. rewrite kx_feq0, kx_ratio by exact K0. reflexivity. Qed.
  Lemma sharpe_units (a b d : xr) : sharpe_ratio (kx k a) (kx k b) (kx k d) = sharpe_ratio a b d.
  Proof. unfold sharpe_ratio. rewrite kx_feq0, <- kx_sub, kx_ratio by exact K0. reflexivity. Qed.

  Lemma tv_units c t s :
    tv_step (in_units_ctx c) (in_units_tv t) (in_units s) = rmap (fun so => (in_units_tv (fst so), snd so)) (tv_step c t s).
  Proof.
    unfold tv_step. cbn [in_units_tv tv_eqm tv_data tv_rfr tv_returns tv_neg_stdev]. rewrite equity_units.
    destruct (equity_step c (tv_eqm t) s) as [[e []]|]; [|reflexivity]. cbn [rmap rbind fst snd].
    change (e_net (in_units_equity e)) with (kx k (e_net e)). change (e_net_max (in_units_equity e)) with (kx k (e_net_max e)).
    change (e_net_min (in_units_equity e)) with (kx k (e_net_min e)). change (e_bar_min (in_units_equity e)) with (kx k (e_bar_min e)).
    change (e_bar_max (in_units_equity e)) with (kx k (e_bar_max e)). change (e_equity (in_units_equity e)) with (kx k (e_equity e)).
    rewrite returns_units. set (ret := returns_next (tv_returns t) (e_net e)).
    change (r_delta (in_units_returns ret)) with (kx k (r_delta ret)). change (r_mean (in_units_returns ret)) with (kx k (r_mean ret)).
    change (r_stdev (in_units_returns ret)) with (kx k (r_stdev ret)).
    rewrite kx_min0, kx_absx by exact K0. rewrite var_units.
    destruct (sstdev_next (tv_neg_stdev t) (fabs (fmin (fZ 0) (r_delta ret)))) as [nst nsd]. cbn [fst snd].
    cbn [in_units s_config s_metrics s_on_exit in_units_config with_capital sc_capital in_units_metrics sm_net sm_open sm_gross_profit sm_gross_loss sm_closed sm_winning sm_losing].
    cbn [in_units_report tv_max_drawdown tv_max_run_up tv_net_equity_history tv_max_drawdown_history tv_equity_history].
    rewrite <- !kx_sub, !kx_max by exact K0.
    set (mdd := fmax (fsub (e_net_max e) (e_bar_min e)) (tv_max_drawdown (tv_data t))).
    set (mru := fmax (fsub (e_bar_max e) (e_net_min e)) (tv_max_run_up (tv_data t))).
    unfold avg_winning_trade, avg_losing_trade. change (fun gp n => if (n =? 0)%nat then None else Some (fdiv gp (fnat n))) with (@avg_trade xr _).
    fold (avg_trade (kx k (sm_gross_profit (s_metrics s))) (sm_winning (s_metrics s))).
    fold (avg_trade (kx k (sm_gross_loss (s_metrics s))) (sm_losing (s_metrics s))).
    fold (avg_trade (sm_gross_profit (s_metrics s)) (sm_winning (s_metrics s))).
    fold (avg_trade (sm_gross_loss (s_metrics s)) (sm_losing (s_metrics s))).
    rewrite !avg_units. change (sortino_ratio (F:=xr)) with (sharpe_ratio (F:=xr)). rewrite !sharpe_units, factor_units.
    unfold net_profit_percent, gross_profit_percent, gross_loss_percent, max_run_up_percent, max_drawdown_percent. rewrite !kx_ratio by exact K0.
    change (avg_win_loss_ratio (F:=xr)) with (profit_factor (F:=xr)). rewrite factor_units.
    assert (EX : is_some (option_map (in_units_trade) (s_on_exit s)) = is_some (s_on_exit s)) by (destruct (s_on_exit s); reflexivity).
    rewrite EX. unfold in_units_tv, in_units_report.
    cbn [tv_data tv_rfr tv_returns tv_neg_stdev tv_eqm tv_net_profit tv_net_profit_percent tv_gross_profit tv_gross_profit_percent tv_gross_loss tv_gross_loss_percent
      tv_max_run_up tv_max_run_up_percent tv_max_drawdown tv_max_drawdown_percent tv_sharpe tv_sortino tv_profit_factor tv_open_pl tv_closed tv_winning tv_losing
      tv_percent_profitable tv_avg_trade tv_avg_winning tv_avg_losing tv_ratio tv_net_equity_history tv_max_drawdown_history tv_equity_history].
    cbn [rmap fst snd tv_data tv_rfr tv_returns tv_neg_stdev tv_eqm tv_net_profit tv_net_profit_percent tv_gross_profit tv_gross_profit_percent tv_gross_loss tv_gross_loss_percent tv_max_run_up tv_max_run_up_percent tv_max_drawdown tv_max_drawdown_percent tv_sharpe tv_sortino tv_profit_factor tv_open_pl tv_closed tv_winning tv_losing tv_percent_profitable tv_avg_trade tv_avg_winning tv_avg_losing tv_ratio tv_net_equity_history tv_max_drawdown_history tv_equity_history]. rewrite !map_app. cbn [map]. destruct (is_some (s_on_exit s)); rewrite ?map_app; reflexivity.
  Qed.

  (** ** The Cobra report *)
  (** Every figure is a ratio, but the intra-trade drawdown is an amount of
      money divided by the price of one share, so it carries the unit of the
      size. *)
  Definition in_units_cobra (b : cobra xr) : cobra xr :=
    mkCobra (cb_estimated b) (cb_start_year b) (cb_eq_max_dd b) (kx z (cb_intra_dd b)) (cb_sortino b) (cb_sharpe b)
      (cb_profit_factor b) (cb_profitable b) (cb_trades b) (cb_omega b) (cb_ls_ratio b)
      (kx k (cb_cur_dd b)) (cb_annualized b) (cb_mean b) (cb_stdev b) (cb_pos_sum b) (cb_neg_stdev b) (cb_neg_sum b)
      (kx k (cb_prev_equity b)) (cb_rfr b) (in_units_equity (cb_eqm b)).
  Lemma ls_units (a b : xr) : long_net_profit_ratio (kx k a) (kx k b) = long_net_profit_ratio a b.
  Proof. unfold long_net_profit_ratio. rewrite kx_feq0, kx_ratio by exact K0. reflexivity. Qed.
  Lemma returns_of_units (a b : xr) : returns_of (kx k a) (kx k b) = returns_of a b.
  Proof. unfold returns_of. rewrite !kx_feq0, kx_ratio by exact K0. reflexivity. Qed.
  Lemma cobra_exit_units b s : cobra_on_exit (in_units_cobra b) (in_units s) = rmap in_units_cobra (cobra_on_exit b s).
  Proof.
    unfold cobra_on_exit. cbn [in_units s_on_exit s_metrics]. destruct (s_on_exit s) as [t|]; [|reflexivity]. cbn [option_map].
    cbn [in_units_trade reprice_trade t_entry_price]. destruct (t_entry_price t) as [e|]; [|reflexivity]. cbn [option_map unwrap rbind rmap].
    cbn [in_units_metrics sm_gross_profit sm_gross_loss sm_winning sm_closed sm_long_net sm_short_net]. rewrite factor_units, ls_units.
    unfold in_units_cobra. cbn [cb_estimated cb_start_year cb_eq_max_dd cb_intra_dd cb_sortino cb_sharpe cb_profit_factor cb_profitable cb_trades cb_omega cb_ls_ratio
      cb_cur_dd cb_annualized cb_mean cb_stdev cb_pos_sum cb_neg_stdev cb_neg_sum cb_prev_equity cb_rfr cb_eqm].
    rewrite kx_0. rewrite <- kx_div by assumption. replace (k / p) with z by (field; lra). rewrite kx_max by exact Z0. reflexivity.
  Qed.
  Lemma cobra_units c b s :
    cobra_step (in_units_ctx c) (in_units_cobra b) (in_units s) = rmap (fun so => (in_units_cobra (fst so), snd so)) (cobra_step c b s).
  Proof.
    unfold cobra_step. rewrite cobra_exit_units. destruct (cobra_on_exit b s) as [b1|]; [|reflexivity]. cbn [rmap rbind].
    cbn [in_units_cobra cb_eqm cb_start_year cb_estimated cb_eq_max_dd cb_intra_dd cb_sortino cb_sharpe cb_profit_factor cb_profitable cb_trades cb_omega cb_ls_ratio
      cb_cur_dd cb_annualized cb_mean cb_stdev cb_pos_sum cb_neg_stdev cb_neg_sum cb_prev_equity cb_rfr].
    rewrite equity_units. destruct (equity_step c (cb_eqm b1) s) as [[e []]|]; [|reflexivity]. cbn [rmap rbind fst snd].
    change (e_net (in_units_equity e)) with (kx k (e_net e)). change (e_equity_max (in_units_equity e)) with (kx k (e_equity_max e)).
    change (e_bar_min (in_units_equity e)) with (kx k (e_bar_min e)). change (e_equity (in_units_equity e)) with (kx k (e_equity e)).
    rewrite returns_of_units, kx_ratio, <- kx_sub, kx_max by exact K0.
    change (bar_year (in_units_ctx c)) with (bar_year c).
    destruct (match cb_start_year b1 with Some y => by_ <- bar_year c ;; Ok (by_ <? y)%Z | None => Ok false end) as [[]|]; [|..]; cbn [rbind]; [reflexivity| |reflexivity].
    destruct (mean_next (cb_mean b1) (returns_of (e_equity e) (cb_prev_equity b1))) as [ms mn].
    destruct (sstdev_next (cb_stdev b1) (returns_of (e_equity e) (cb_prev_equity b1))) as [ss sd].
    destruct (sstdev_next (cb_neg_stdev b1) (fabs (fmin (fZ 0) (returns_of (e_equity e) (cb_prev_equity b1))))) as [ns nsd]. reflexivity.
  Qed.

  (** ** Whole runs *)
  Lemma metered_units {M : Type} (phi : M -> M) (mstep : ctx xr -> M -> strategy xr -> res (M * unit)) cfg m0 c sigs :
    (forall c m s, mstep (in_units_ctx c) (phi m) (in_units s) = rmap (fun so => (phi (fst so), snd so)) (mstep c m s)) ->
    sized cfg ->
    run (metered mstep) (in_units_ctx c) (in_units (strategy_new cfg), phi m0) sigs =
    rmap (map (fun o => (in_units (fst o), phi (snd o)))) (run (metered mstep) c (strategy_new cfg, m0) sigs).
  Proof.
    intros MS SZ. assert (SN : sized (s_config (strategy_new cfg))) by exact SZ. revert SN. generalize (strategy_new cfg). intros s0 SN.
    unfold run. clear SZ. revert c s0 m0 SN. induction sigs as [|x sigs IH]; intros c s0 m0 SN; [reflexivity|].
    cbn [run_st]. unfold metered at 1 3. cbn [fst snd]. rewrite strategy_units by exact SN.
    destruct (strategy_step c s0 x) as [[s1 []]|] eqn:ES; [|reflexivity]. cbn [rmap rbind fst snd]. rewrite MS.
    destruct (mstep c m0 s1) as [[m1 []]|]; [|reflexivity]. cbn [rmap rbind fst snd].
    assert (S1 : sized (s_config s1)) by (rewrite (strategy_keeps_config _ _ _ _ _ ES); exact SN).
    specialize (IH (ctx_advance c) s1 m1 S1). change (ctx_advance (in_units_ctx c)) with (in_units_ctx (ctx_advance c)).
    destruct (run_st (metered mstep) (in_units_ctx (ctx_advance c)) (in_units s1, phi m1) sigs) as [[s2 os2]|];
      destruct (run_st (metered mstep) (ctx_advance c) (s1, m1) sigs) as [[s3 os3]|]; cbn in IH |- *; congruence.
  Qed.
End Units.

(** ** C108 *)
Lemma new_units p z cfg : in_units p z (strategy_new cfg) = strategy_new (in_units_config p z cfg).
Proof.
  unfold in_units, strategy_new, in_units_metrics, smetrics_default.
  cbn [s_config s_trades s_unfilled s_on_entry s_on_exit s_metrics map option_map sm_equity sm_net sm_open sm_gross_profit sm_gross_loss sm_closed sm_winning sm_losing sm_long_net sm_short_net].
  rewrite !kx_0. reflexivity.
Qed.
Lemma equity_new_units p z x : in_units_equity p z (equity_new x) = equity_new (kx (p * z) x).
Proof. unfold in_units_equity, equity_new. cbn [e_equity e_equity_min e_equity_max e_net e_net_min e_net_max e_bop_min e_bop_max e_bar_min e_bar_max]. rewrite !kx_0. reflexivity. Qed.
Lemma var_build_units p z b : in_units_var p z (sstdev_build b) = sstdev_build b.
Proof. unfold in_units_var, sstdev_build, var_build, in_units_wvar, wvar_new, in_units_mean, mean_new. cbn [va_fast va_cache va_welford va_mean wf_n wf_mean wf_dev mn_sum mn_n ic_new map]. rewrite !kx_0. reflexivity. Qed.
Lemma tv_new_units p z cfg rfr : in_units_tv p z (tv_new (strategy_new cfg) rfr) = tv_new (strategy_new (in_units_config p z cfg)) (kx (p * z) rfr).
Proof.
  unfold in_units_tv, tv_new. cbn [tv_data tv_rfr tv_returns tv_neg_stdev tv_eqm s_config strategy_new]. rewrite equity_new_units, var_build_units.
  f_equal.
  - unfold in_units_report, tvdata_default.
    cbn [tv_data tv_rfr tv_returns tv_neg_stdev tv_eqm tv_net_profit tv_net_profit_percent tv_gross_profit tv_gross_profit_percent tv_gross_loss tv_gross_loss_percent tv_max_run_up tv_max_run_up_percent tv_max_drawdown tv_max_drawdown_percent tv_sharpe tv_sortino tv_profit_factor tv_open_pl tv_closed tv_winning tv_losing tv_percent_profitable tv_avg_trade tv_avg_winning tv_avg_losing tv_ratio tv_net_equity_history tv_max_drawdown_history tv_equity_history map].
    rewrite !kx_0. reflexivity.
  - unfold in_units_returns, returns_build. cbn [r_delta r_stdev r_mean r_prev r_stdev_st r_mean_st]. rewrite var_build_units, !kx_0. f_equal.
    unfold in_units_mean, mean_new. cbn [mn_sum mn_n]. rewrite kx_0. reflexivity.
Qed.
Lemma cobra_new_units p z cfg est start : in_units_cobra p z (cobra_new (strategy_new cfg) est start) = cobra_new (strategy_new (in_units_config p z cfg)) est start.
Proof.
  unfold in_units_cobra, cobra_new. cbn [cb_eqm cb_start_year cb_estimated cb_eq_max_dd cb_intra_dd cb_sortino cb_sharpe cb_profit_factor cb_profitable cb_trades cb_omega cb_ls_ratio
      cb_cur_dd cb_annualized cb_mean cb_stdev cb_pos_sum cb_neg_stdev cb_neg_sum cb_prev_equity cb_rfr s_config strategy_new].
  rewrite equity_new_units, !kx_0. reflexivity.
Qed.

(** The TradingView report of every bar, with prices times [p] and sizes times
    [z]: money times [p * z], ratios and counts the same, provided the capital
    and the risk-free rate are converted too. *)
Theorem C108_tradingview p z (cfg : sconfig xr) rfr c sigs : 0 < p -> 0 < z -> (sc_with_equity cfg = true \/ z = 1) ->
  let cfg' := in_units_config p z cfg in
  run (metered tv_step) (in_units_ctx p c) (strategy_new cfg', tv_new (strategy_new cfg') (kx (p * z) rfr)) sigs =
  rmap (map (fun o => (in_units p z (fst o), in_units_tv p z (snd o))))
    (run (metered tv_step) c (strategy_new cfg, tv_new (strategy_new cfg) rfr) sigs).
Proof.
  intros P Z SZ. cbn zeta. rewrite <- new_units at 1. rewrite <- tv_new_units.
  apply metered_units; [exact P|exact Z| |exact SZ]. intros c0 m s. apply tv_units; assumption.
Qed.
(** The Cobra report: all ratios the same, but the intra-trade drawdown is
    multiplied by the change of the size unit. *)
Theorem C108_cobra p z (cfg : sconfig xr) est start c sigs : 0 < p -> 0 < z -> (sc_with_equity cfg = true \/ z = 1) ->
  let cfg' := in_units_config p z cfg in
  run (metered cobra_step) (in_units_ctx p c) (strategy_new cfg', cobra_new (strategy_new cfg') est start) sigs =
  rmap (map (fun o => (in_units p z (fst o), in_units_cobra p z (snd o))))
    (run (metered cobra_step) c (strategy_new cfg, cobra_new (strategy_new cfg) est start) sigs).
Proof.
  intros P Z SZ. cbn zeta. rewrite <- new_units at 1. rewrite <- cobra_new_units.
  apply metered_units; [exact P|exact Z| |exact SZ]. intros c0 m s. apply cobra_units; assumption.
Qed.
(** The equity tracker. *)
Theorem C108_equity p z (cfg : sconfig xr) c sigs : 0 < p -> 0 < z -> (sc_with_equity cfg = true \/ z = 1) ->
  let cfg' := in_units_config p z cfg in
  run (metered equity_step) (in_units_ctx p c) (strategy_new cfg', equity_new (sc_capital cfg')) sigs =
  rmap (map (fun o => (in_units p z (fst o), in_units_equity p z (snd o))))
    (run (metered equity_step) c (strategy_new cfg, equity_new (sc_capital cfg)) sigs).
Proof.
  intros P Z SZ. cbn zeta. rewrite <- new_units at 1. cbn [in_units_config with_capital sc_capital]. rewrite <- equity_new_units.
  apply metered_units; [exact P|exact Z| |exact SZ]. intros c0 m s. apply equity_units; assumption.
Qed.

(** *** Three instances *)
Lemma units_ctx_1 c : in_units_ctx 1 c = c.
Proof.
  destruct c as [d a b n i r]. unfold in_units_ctx, reprice_ctx. cbn [c_data c_first c_last c_bars c_index c_running]. f_equal.
  destruct d as [d1 d2 d3 d4 d5 d6 d7 d8]. unfold reprice. cbn [p_open p_high p_low p_close p_volume p_time p_start p_end].
  assert (E : forall l : list (option xr), map (option_map (kx 1)) l = l).
  { induction l as [|[v|] l IH]; cbn [map option_map]; [reflexivity| |]; rewrite IH, ?kx_1; reflexivity. }
  rewrite !E. reflexivity.
Qed.
(** What every line of the TradingView report that is a ratio or a count says. *)
Definition ratios (d : tvdata xr) : list xr :=
  [tv_net_profit_percent d; tv_gross_profit_percent d; tv_gross_loss_percent d; tv_max_run_up_percent d; tv_max_drawdown_percent d;
   tv_sharpe d; tv_sortino d; tv_profit_factor d; tv_percent_profitable d; tv_ratio d].
Definition amounts (d : tvdata xr) : list xr :=
  [tv_net_profit d; tv_gross_profit d; tv_gross_loss d; tv_max_run_up d; tv_max_drawdown d; tv_open_pl d; tv_avg_trade d; tv_avg_winning d; tv_avg_losing d] ++
  tv_net_equity_history d ++ tv_max_drawdown_history d ++ tv_equity_history d.
Definition counts (d : tvdata xr) : list nat := [tv_closed d; tv_winning d; tv_losing d].
Lemma report_units p z d : ratios (in_units_report p z d) = ratios d /\ amounts (in_units_report p z d) = map (kx (p * z)) (amounts d) /\ counts (in_units_report p z d) = counts d.
Proof. split; [reflexivity|split; [|reflexivity]]. unfold amounts. rewrite !map_app. reflexivity. Qed.

(** Starting with [k] times the capital, trades sized by equity. *)
Theorem C108_capital k (cfg : sconfig xr) rfr c sigs os os' : 0 < k -> sc_with_equity cfg = true ->
  observed tv_step cfg (tv_new (strategy_new cfg) rfr) c sigs os ->
  observed tv_step (with_capital cfg (kx k (sc_capital cfg))) (tv_new (strategy_new (with_capital cfg (kx k (sc_capital cfg)))) (kx k rfr)) c sigs os' ->
  Forall2 (fun o o' => let d := tv_data (snd o) in let d' := tv_data (snd o') in
    ratios d' = ratios d /\ amounts d' = map (kx k) (amounts d) /\ counts d' = counts d) os os'.
Proof.
  intros K WE O O'. pose proof (C108_tradingview 1 k cfg rfr c sigs ltac:(lra) K (or_introl WE)) as H. cbn zeta in H.
  rewrite units_ctx_1 in H. unfold in_units_config in H. rewrite Rmult_1_l in H. unfold observed in O, O'. rewrite O, O' in H. cbn [rmap] in H.
  injection H as ->. clear O O'. induction os as [|o os IH]; constructor; [|exact IH]. cbn [snd in_units_tv tv_data].
  pose proof (report_units 1 k (tv_data (snd o))) as RU. rewrite Rmult_1_l in RU. exact RU.
Qed.
(** The same market and the same capital in another currency. *)
Theorem C108_currency k (cfg : sconfig xr) rfr c sigs os os' : 0 < k ->
  observed tv_step cfg (tv_new (strategy_new cfg) rfr) c sigs os ->
  observed tv_step (with_capital cfg (kx k (sc_capital cfg))) (tv_new (strategy_new (with_capital cfg (kx k (sc_capital cfg)))) (kx k rfr)) (reprice_ctx (kx k) c) sigs os' ->
  Forall2 (fun o o' => let d := tv_data (snd o) in let d' := tv_data (snd o') in
    ratios d' = ratios d /\ amounts d' = map (kx k) (amounts d) /\ counts d' = counts d) os os'.
Proof.
  intros K O O'. pose proof (C108_tradingview k 1 cfg rfr c sigs K ltac:(lra) (or_intror eq_refl)) as H. cbn zeta in H.
  unfold in_units_config, in_units_ctx in H. rewrite Rmult_1_r in H. unfold observed in O, O'. rewrite O, O' in H. cbn [rmap] in H.
  injection H as ->. clear O O'. induction os as [|o os IH]; constructor; [|exact IH]. cbn [snd in_units_tv tv_data].
  pose proof (report_units k 1 (tv_data (snd o))) as RU. rewrite Rmult_1_r in RU. exact RU.
Qed.
(** A stock split: prices times [k], the same capital, trades sized by equity.
    The whole report stays as it was. *)
Theorem C108_split k (cfg : sconfig xr) rfr c sigs os os' : 0 < k -> sc_with_equity cfg = true ->
  observed tv_step cfg (tv_new (strategy_new cfg) rfr) c sigs os ->
  observed tv_step cfg (tv_new (strategy_new cfg) rfr) (reprice_ctx (kx k) c) sigs os' ->
  map (fun o => tv_data (snd o)) os' = map (fun o => tv_data (snd o)) os.
Proof.
  intros K WE O O'. assert (KI : k * / k = 1) by (field; lra).
  assert (IK : 0 < / k) by (apply Rinv_0_lt_compat; exact K).
  pose proof (C108_tradingview k (/ k) cfg rfr c sigs K IK (or_introl WE)) as H. cbn zeta in H.
  unfold in_units_config in H. rewrite KI, !kx_1 in H.
  assert (CE : with_capital cfg (sc_capital cfg) = cfg) by (destruct cfg; reflexivity). rewrite CE in H.
  unfold observed in O, O'. fold (in_units_ctx k c) in O'. rewrite O, O' in H. cbn [rmap] in H. injection H as ->.
  rewrite map_map. apply map_ext. intros [s t]. cbn [snd in_units_tv tv_data].
  destruct (tv_data t) as [a1 a2 a3 a4 a5 a6 a7 a8 a9 a10 a11 a12 a13 a14 a15 a16 a17 a18 a19 a20 a21 a22 a23 a24 a25]. unfold in_units_report. cbn [tv_net_profit tv_net_profit_percent tv_gross_profit tv_gross_profit_percent tv_gross_loss tv_gross_loss_percent tv_max_run_up tv_max_run_up_percent tv_max_drawdown tv_max_drawdown_percent tv_sharpe tv_sortino tv_profit_factor tv_open_pl tv_closed tv_winning tv_losing tv_percent_profitable tv_avg_trade tv_avg_winning tv_avg_losing tv_ratio tv_net_equity_history tv_max_drawdown_history tv_equity_history].
  rewrite KI. assert (E : forall l, map (kx 1) l = l) by (intros l; rewrite (map_ext _ (fun x => x)); [apply map_id|apply kx_1]).
  rewrite !E, !kx_1. reflexivity.
Qed.

(** ** Cases *)
Lemma ctx5_complete n : (n <= 5)%nat -> complete ctx5 n.
Proof.
  intros N k Hk col I. cbn in I. repeat (destruct I as [<-|I]; [do 5 (destruct k as [|k]; [eexists; reflexivity|]); lia|]). contradiction.
Qed.
(** A run with two trades to convert, sized by equity or not. *)
Example C108_ex eq : exists os, observed tv_step (cfg5 false true eq) (tv_new (strategy_new (cfg5 false true eq)) tv_default_rfr) ctx5 sig5 os /\ length os = 5%nat.
Proof. destruct (C89_tradingview (cfg5 false true eq) tv_default_rfr ctx5 sig5) as (os & O & L); [apply ctx5_complete; cbn; lia|]. exists os. auto. Qed.

(** ** What depends on the unit of money after all (f64; doubling is exact) *)
Definition double_price (b : bar f64) : bar f64 :=
  let d := option_map (fmul (q 2)) in mkBar (d (b_open b)) (d (b_high b)) (d (b_low b)) (d (b_close b)) (b_volume b).
Definition ctx6_double : ctx f64 :=
  let bs := map double_price bars6 in
  mkCtx (mkProvider (map b_open bs) (map b_high bs) (map b_low bs) (map b_close bs) (map b_volume bs) (repeat None 6) 0 5) 0 5 6 0 false.
Definition last_of {A} (r : res (list A)) : option A := match r with Ok os => newest os | Panic => None end.
Definition tv_last (cfg : sconfig f64) (rfr : f64) (c : ctx f64) (f : tvdata f64 -> f64) : option f64 :=
  option_map (fun o => f (tv_data (snd o))) (last_of (run (metered tv_step) c (strategy_new cfg, tv_new (strategy_new cfg) rfr) sig6)).
Definition cobra_last (cfg : sconfig f64) (c : ctx f64) (f : cobra f64 -> f64) : option f64 :=
  option_map (fun o => f (snd o)) (last_of (run (metered cobra_step) c (strategy_new cfg, cobra_new (strategy_new cfg) false None) sig6)).
Definition money (k : f64) : sconfig f64 := mkSConfig false true k true.
(** The default risk-free rate 0.02 is subtracted from amounts of money: in a
    currency worth half as much (prices and capital doubled) the Sharpe
    ratio changes, unless the rate is doubled as well. *)
Theorem C108_rate_is_money :
  let k := q 100 in let k2 := fmul (q 2) k in let r := tv_default_rfr in let r2 := fmul (q 2) r in
  same_opt (tv_last (money k2) r2 ctx6_double (@tv_sharpe f64)) (tv_last (money k) r ctx6 (@tv_sharpe f64)) = true /\
  same_opt (tv_last (money k2) r ctx6_double (@tv_sharpe f64)) (tv_last (money k) r ctx6 (@tv_sharpe f64)) = false /\
  same_opt (tv_last (money k2) r ctx6_double (@tv_net_profit_percent f64)) (tv_last (money k) r ctx6 (@tv_net_profit_percent f64)) = true.
Proof. vm_compute. repeat split; reflexivity. Qed.
(** With twice the capital the intra-trade drawdown, reported as a percentage,
    doubles: it is an amount of money over the price of one share. *)
Theorem C108_intra_trade_grows :
  let k := q 100 in let k2 := fmul (q 2) k in
  same_opt (cobra_last (money k2) ctx6 (@cb_intra_dd f64)) (option_map (fmul (q 2)) (cobra_last (money k) ctx6 (@cb_intra_dd f64))) = true /\
  same_opt (cobra_last (money k2) ctx6 (@cb_intra_dd f64)) (cobra_last (money k) ctx6 (@cb_intra_dd f64)) = false /\
  same_opt (cobra_last (money k2) ctx6 (@cb_eq_max_dd f64)) (cobra_last (money k) ctx6 (@cb_eq_max_dd f64)) = true.
Proof. vm_compute. repeat split; reflexivity. Qed.
