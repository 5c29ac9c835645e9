(** * PropBacktest: properties C79-C85, how a backtest responds to a change of
    its signals, capital or prices, and where its equity comes from. *)
From Verif Require Export PropStrategy PIeee2.

(** ** Two books that correspond position by position *)
Section Simulation.
  Context {F : Type} {NF : Num F}.
  Variables (cfg cfg' : sconfig F) (phi : position F -> position F) (om : @order F -> @order F).
  Variables (P : position F -> Prop) (Q : @order F -> Prop).
  Hypothesis Hcont : sc_continuous cfg' = sc_continuous cfg.
  Hypothesis Hclosed : forall p, pos_closed (phi p) = pos_closed p.
  Hypothesis Hdir : forall p o, dir_eqb (pos_dir (phi p)) (snd (om o)) = dir_eqb (pos_dir p) (snd o).
  Hypothesis Hleave : forall p o, P p -> Q o -> phi (leave p o) = leave (phi p) (om o).
  Hypothesis Henter : forall ps o, Forall P ps -> Q o -> phi (enter cfg ps o) = enter cfg' (map phi ps) (om o).
  Hypothesis Penter : forall ps o, Forall P ps -> Q o -> P (enter cfg ps o).
  Hypothesis Pleave : forall p o, P p -> Q o -> P (leave p o).

  Lemma place_sim ps o : Forall P ps -> Q o ->
    map phi (place cfg ps o) = place cfg' (map phi ps) (om o) /\ Forall P (place cfg ps o).
  Proof.
    intros HP HQ. unfold place. rewrite newest_map. destruct (newest ps) as [p|] eqn:N; cbn [option_map].
    - rewrite Hclosed, Hdir, Hcont. destruct (pos_closed p).
      + rewrite map_app. cbn [map]. rewrite Henter by assumption. split; [reflexivity|].
        apply Forall_app; split; [exact HP|]. constructor; [apply Penter; assumption|constructor].
      + destruct (dir_eqb (pos_dir p) (snd o)); [split; [reflexivity|exact HP]|].
        assert (Pp : P p).
        { rewrite Forall_forall in HP. apply HP. unfold newest in N. eapply nth_error_In; exact N. }
        assert (PR : Forall P (removelast ps ++ [leave p o])).
        { rewrite (newest_split _ _ N) in HP. apply Forall_app in HP. apply Forall_app; split; [apply HP|].
          constructor; [apply Pleave; assumption|constructor]. }
        assert (E : map phi (removelast ps ++ [leave p o]) = removelast (map phi ps) ++ [leave (phi p) (om o)]).
        { rewrite map_app, removelast_map. cbn [map]. rewrite Hleave by assumption. reflexivity. }
        destruct (sc_continuous cfg).
        * rewrite map_app, E. cbn [map]. rewrite Henter, E by assumption. split; [reflexivity|].
          apply Forall_app; split; [exact PR|]. constructor; [apply Penter; assumption|constructor].
        * split; [exact E|exact PR].
    - apply newest_nil in N. subst ps. cbn [map app]. rewrite Henter by assumption.
      split; [reflexivity|]. constructor; [apply Penter; assumption|constructor].
  Qed.
  Lemma book_sim os : Forall Q os ->
    map phi (book cfg os) = book cfg' (map om os) /\ Forall P (book cfg os).
  Proof.
    intros HQ. unfold book.
    assert (G : forall ps, Forall P ps -> map phi (fold_left (place cfg) os ps) =
                fold_left (place cfg') (map om os) (map phi ps) /\ Forall P (fold_left (place cfg) os ps)).
    { induction HQ as [|o os Ho _ IH]; intros ps HP; [split; [reflexivity|exact HP]|].
      cbn [fold_left map]. destruct (place_sim ps o HP Ho) as [E HP']. rewrite <- E. apply IH, HP'. }
    exact (G [] (Forall_nil _)).
  Qed.
End Simulation.

(** The orders of a history whose prices and directions are replaced. *)
Definition re_order {F} (f : F -> F) (g : direction -> direction) (o : nat * F * direction) : nat * F * direction :=
  (fst (fst o), f (snd (fst o)), g (snd o)).
Definition fills {F} (cfg : sconfig F) (d : provider F) : list (option F) :=
  if sc_on_close cfg then p_close d else p_open d.

Lemma orders_sim {F} {NF : Num F} (cfg cfg' : sconfig F) d d' i0 sigs (f : F -> F) g :
  sc_on_close cfg' = sc_on_close cfg ->
  (forall k, k < length sigs -> quote (fills cfg d') (i0 + k) = f (quote (fills cfg d) (i0 + k))) ->
  orders cfg' d' i0 (map (option_map g) sigs) = map (re_order f g) (orders cfg d i0 sigs).
Proof.
  intros HC HQ. unfold orders, fills in *. rewrite HC, map_length.
  assert (M : forall (h : nat -> list (@order F)) (h' : nat -> list (@order F)) n,
    (forall k, k < n -> h' k = map (re_order f g) (h k)) ->
    flat_map h' (seq 0 n) = map (re_order f g) (flat_map h (seq 0 n))).
  { intros h h' n H. rewrite flat_map_concat_map, (flat_map_concat_map h), concat_map, map_map. f_equal.
    apply map_ext_in. intros k Hk. apply H. apply in_seq in Hk. lia. }
  assert (N : forall k, nth k (map (option_map g) sigs) None = option_map g (nth k sigs None)).
  { intros k. change (@None direction) with (option_map g (@None direction)) at 1. apply map_nth. }
  destruct (sc_on_close cfg); apply M; intros k Hk; rewrite N; unfold order_at;
    destruct (nth k sigs None); cbn [option_map map]; try reflexivity; unfold re_order; cbn [fst snd].
  - rewrite HQ by lia. reflexivity.
  - rewrite <- !Nat.add_assoc, HQ by lia. reflexivity.
Qed.
Lemma map_option_id {A} (l : list (option A)) : map (option_map (fun x => x)) l = l.
Proof. rewrite <- (map_id l) at 2. apply map_ext. intros [x|]; reflexivity. Qed.

(** ** C79: no signal, no trade *)
Section C79.
  Context {F : Type} {NF : Num F}.
  Local Open Scope num_scope.
  Theorem C79_no_signal (cfg : sconfig F) c sigs s : after cfg c sigs s -> (forall x, In x sigs -> x = None) ->
    s_trades s = [] /\ s_on_entry s = None /\ s_on_exit s = None /\
    let m := s_metrics s in
    sm_net m = fZ 0 /\ sm_open m = fZ 0 /\ sm_gross_profit m = fZ 0 /\ sm_gross_loss m = fZ 0 /\
    sm_closed m = 0%nat /\ sm_winning m = 0%nat /\ sm_losing m = 0%nat /\ sm_long_net m = fZ 0 /\ sm_short_net m = fZ 0 /\
    (sm_equity m = sc_capital cfg \/ sm_equity m = sc_capital cfg + fZ 0 + fZ 0).
  Proof.
    intros A HN. pose proof (after_tracks _ _ _ _ A) as T.
    assert (NN : forall k, nth k sigs None = None).
    { intros k. destruct (nth_in_or_default k sigs None) as [Hin|D]; [apply HN, Hin|exact D]. }
    assert (O : forall sg, (forall k, nth k sg None = None) -> orders cfg (c_data c) (c_index c) sg = []).
    { intros sg H. unfold orders. destruct (sc_on_close cfg).
      - induction (seq 0 (length sg)) as [|k l IH]; [reflexivity|]. cbn [flat_map]. rewrite H. exact IH.
      - induction (seq 0 (length sg - 1)) as [|k l IH]; [reflexivity|]. cbn [flat_map]. rewrite H. exact IH. }
    assert (PA : pos_at cfg (c_data c) (c_index c) sigs = []) by (unfold pos_at; rewrite O by exact NN; reflexivity).
    destruct T. rewrite PA in *. destruct tr_tally.
    split; [assumption|].
    assert (EV : s_on_entry s = None /\ s_on_exit s = None).
    { destruct sigs as [|x sigs _] using rev_ind.
      - destruct A as [os R]. cbn in R. injection R as <- _. split; reflexivity.
      - destruct A as [os R]. destruct (run_events _ _ _ _ _ _ R) as [-> ->].
        assert (NO : new_order cfg (c_data c) (c_index c) sigs x = []).
        { unfold new_order. assert (HX : x = None) by (apply HN, in_or_app; right; left; reflexivity).
          assert (HL : last sigs None = None).
          { destruct sigs as [|y sigs _] using rev_ind; [reflexivity|]. rewrite last_last.
            apply HN. apply in_or_app. left. apply in_or_app. right. left. reflexivity. }
          rewrite HX, HL. destruct (sc_on_close cfg); reflexivity. }
        unfold event. rewrite NO. split; reflexivity. }
    destruct EV as [-> ->]. split; [reflexivity|]. split; [reflexivity|]. cbn zeta.
    assert (OP : sm_open (s_metrics s) = fZ 0) by (apply ta_flat; reflexivity).
    repeat (split; [assumption|]).
    rewrite tr_equity. destruct sigs; [left; reflexivity|right]. rewrite OP, ta_net. reflexivity.
  Qed.
End C79.
(** With real capital the equity stays at the capital. *)
Theorem C79_flat_equity (cfg : sconfig xr) k c sigs s : sc_capital cfg = Fin k ->
  after cfg c sigs s -> (forall x, In x sigs -> x = None) -> sm_equity (s_metrics s) = sc_capital cfg.
Proof.
  intros K A HN. destruct (C79_no_signal _ _ _ _ A HN) as (_ & _ & _ & H). cbn zeta in H.
  destruct H as (_ & _ & _ & _ & _ & _ & _ & _ & _ & [->| ->]); [reflexivity|].
  rewrite K, fin_Z, !fin_add. f_equal. lra.
Qed.

(** ** C80: with a fixed size the capital only shifts the equity *)
Definition with_capital {F} (cfg : sconfig F) (k : F) : sconfig F :=
  mkSConfig (sc_on_close cfg) (sc_continuous cfg) k (sc_with_equity cfg).
Section C80.
  Context {F : Type} {NF : Num F}.
  Local Open Scope num_scope.
  (** Everything the metrics report except the equity. *)
  Definition same_results (m m' : smetrics F) : Prop :=
    sm_net m' = sm_net m /\ sm_open m' = sm_open m /\ sm_gross_profit m' = sm_gross_profit m /\
    sm_gross_loss m' = sm_gross_loss m /\ sm_closed m' = sm_closed m /\ sm_winning m' = sm_winning m /\
    sm_losing m' = sm_losing m /\ sm_long_net m' = sm_long_net m /\ sm_short_net m' = sm_short_net m.

  Lemma same_tallies (cfg cfg' : sconfig F) d i0 sigs sigs' s s' :
    tracks cfg d i0 sigs s -> tracks cfg' d i0 sigs' s' -> length sigs = length sigs' -> sigs <> [] ->
    pos_at cfg' d i0 sigs' = pos_at cfg d i0 sigs -> same_results (s_metrics s) (s_metrics s').
  Proof.
    intros T T' L NE E. destruct T, T'. rewrite E in *. destruct tr_tally, tr_tally0.
    assert (NE' : sigs' <> []) by (intros ->; destruct sigs; [contradiction|discriminate L]).
    specialize (tr_open NE). specialize (tr_open0 NE'). rewrite L in tr_open.
    repeat split; congruence.
  Qed.

  Theorem C80_capital (cfg : sconfig F) k c sigs s s' : sc_with_equity cfg = false ->
    after cfg c sigs s -> after (with_capital cfg k) c sigs s' ->
    s_trades s' = s_trades s /\ same_results (s_metrics s) (s_metrics s') /\
    (sigs <> [] -> sm_equity (s_metrics s) = sc_capital cfg + sm_net (s_metrics s) + sm_open (s_metrics s) /\
                   sm_equity (s_metrics s') = k + sm_net (s_metrics s) + sm_open (s_metrics s)).
  Proof.
    intros WE A A'. pose proof (after_tracks _ _ _ _ A) as T. pose proof (after_tracks _ _ _ _ A') as T'.
    assert (E : pos_at (with_capital cfg k) (c_data c) (c_index c) sigs = pos_at cfg (c_data c) (c_index c) sigs).
    { unfold pos_at. replace (orders (with_capital cfg k) (c_data c) (c_index c) sigs) with (orders cfg (c_data c) (c_index c) sigs) by reflexivity.
      destruct (book_sim cfg (with_capital cfg k) (fun p => p) (fun o => o) (fun _ => True) (fun _ => True)) with
        (os := orders cfg (c_data c) (c_index c) sigs) as [E _]; try reflexivity; try (intros; exact I).
      - intros ps [[t x] d] _ _. rewrite map_id. unfold enter, size_for. cbn [with_capital sc_with_equity]. rewrite WE. reflexivity.
      - apply Forall_forall. intros; exact I.
      - rewrite !map_id in E. symmetry. exact E. }
    split; [rewrite (tr_trades _ _ _ _ _ T), (tr_trades _ _ _ _ _ T'), E; reflexivity|].
    destruct sigs as [|x sigs]; [|set (xs := x :: sigs) in *].
    - destruct A as [o R], A' as [o' R']. cbn in R, R'. injection R as <- _. injection R' as <- _.
      split; [repeat split|]. intros H; contradiction.
    - assert (SR : same_results (s_metrics s) (s_metrics s')) by (eapply same_tallies; [exact T|exact T'|reflexivity|discriminate|exact E]).
      split; [exact SR|]. intros _. rewrite (tr_equity _ _ _ _ _ T), (tr_equity _ _ _ _ _ T'). unfold xs at 1 2.
      destruct SR as (-> & -> & _). split; reflexivity.
  Qed.
End C80.

(** ** Corresponding histories in exact arithmetic *)
Local Open Scope R_scope.
(** [k] times a value. *)
Definition kx (k : R) (v : xr) : xr := fmul (Fin k) v.
Lemma kx_fin k r : kx k (Fin r) = Fin (k * r). Proof. reflexivity. Qed.
Lemma kx_finite k v : finite v -> finite (kx k v).
Proof. intros [r ->]. eexists; reflexivity. Qed.

Lemma kx_total k l : Forall finite l -> total (map (kx k) l) = kx k (total l).
Proof.
  intros H. induction l as [|x l IH] using rev_ind; [apply (f_equal Fin); cbn; ring|].
  apply Forall_app in H. destruct H as [H Hx]. inversion Hx as [|? ? [r ->] _]; subst.
  rewrite map_app, total_snoc. cbn [map]. rewrite total_snoc, IH by exact H.
  destruct (fin_total _ H) as (t & -> & _). rewrite fin_add, !kx_fin, fin_add. f_equal. lra.
Qed.
Lemma kx_won k v : 0 < k -> finite v -> won (kx k v) = won v.
Proof.
  intros K [r ->]. rewrite kx_fin. unfold won. rewrite fin_Z, !fin_lt.
  destruct (Rltb_spec 0 (k * r)), (Rltb_spec 0 r); try reflexivity; nra.
Qed.
Lemma kx_lost k v : 0 < k -> finite v -> lost (kx k v) = lost v.
Proof.
  intros K F. unfold lost. change (fltb (fZ 0) (kx k v)) with (won (kx k v)). rewrite kx_won by assumption.
  destruct F as [r ->]. rewrite kx_fin. unfold won. rewrite fin_Z, !fin_lt. f_equal.
  destruct (Rltb_spec (k * r) 0), (Rltb_spec r 0); try reflexivity; nra.
Qed.
Lemma kx_abs k v : 0 < k -> finite v -> fabs (kx k v) = kx k (fabs v).
Proof. intros K [r ->]. rewrite fin_abs, !kx_fin, fin_abs, Rabs_mult, (Rabs_right k) by lra. reflexivity. Qed.
Lemma filter_map_finite (w : xr -> bool) (f : xr -> xr) l : (forall v, finite v -> w (f v) = w v) -> Forall finite l ->
  filter w (map f l) = map f (filter w l).
Proof.
  intros H HF. induction HF as [|v l Hv _ IH]; [reflexivity|]. cbn [map filter]. rewrite (H v Hv), IH.
  destruct (w v); reflexivity.
Qed.
Lemma Forall_filter {A} (P : A -> Prop) w l : Forall P l -> Forall P (filter w l).
Proof. intros H. apply Forall_forall. intros x Hx. apply filter_In in Hx. rewrite Forall_forall in H. apply H, Hx. Qed.
Lemma map_ext_Forall {A B} (f g : A -> B) (P : A -> Prop) l : (forall a, P a -> f a = g a) -> Forall P l -> map f l = map g l.
Proof. intros H HF. induction HF; [reflexivity|]. cbn [map]. rewrite H by assumption. congruence. Qed.
Lemma filter_map {A B} (f : A -> B) w l : filter w (map f l) = map f (filter (fun x => w (f x)) l).
Proof. induction l as [|x l IH]; [reflexivity|]. cbn [map filter]. rewrite IH. destruct (w (f x)); reflexivity. Qed.

(** Every amount of money is multiplied by [k], the counts are the same. *)
Definition scaled_results (k : R) (m m' : smetrics xr) : Prop :=
  sm_net m' = kx k (sm_net m) /\ sm_open m' = kx k (sm_open m) /\
  sm_gross_profit m' = kx k (sm_gross_profit m) /\ sm_gross_loss m' = kx k (sm_gross_loss m) /\
  sm_long_net m' = kx k (sm_long_net m) /\ sm_short_net m' = kx k (sm_short_net m) /\
  sm_closed m' = sm_closed m /\ sm_winning m' = sm_winning m /\ sm_losing m' = sm_losing m.

Section ScaledBooks.
  Variable k : R.
  Hypothesis K : 0 < k.
  Variables (cfg cfg' : sconfig xr) (c c' : ctx xr) (sigs : list (option direction)) (s s' : strategy xr).
  Variable phi : position xr -> position xr.
  Hypothesis T : tracks cfg (c_data c) (c_index c) sigs s.
  Hypothesis T' : tracks cfg' (c_data c') (c_index c') sigs s'.
  Hypothesis E : pos_at cfg' (c_data c') (c_index c') sigs = map phi (pos_at cfg (c_data c) (c_index c) sigs).
  Hypothesis FP : Forall fin_pos (pos_at cfg (c_data c) (c_index c) sigs).
  Hypothesis Hclosed : forall p, pos_closed (phi p) = pos_closed p.
  Hypothesis Hdir : forall p, pos_dir (phi p) = pos_dir p.
  Hypothesis Hreal : forall p, fin_pos p -> realised (phi p) = kx k (realised p).
  Hypothesis Hopen : sigs <> [] -> forall p, fin_pos p ->
    gain (phi p) (quote (p_close (c_data c')) (c_index c' + length sigs - 1)) =
    kx k (gain p (quote (p_close (c_data c)) (c_index c + length sigs - 1))).

  Lemma scaled_profits ps : Forall fin_pos ps -> profits (map phi ps) = map (kx k) (profits ps).
  Proof.
    intros H. unfold profits. rewrite filter_map, !map_map.
    rewrite (filter_ext _ pos_closed) by (intros p; apply Hclosed).
    apply (map_ext_Forall _ _ fin_pos); [exact Hreal|]. apply Forall_filter, H.
  Qed.
  Lemma scaled_side d ps : Forall fin_pos ps -> side d (map phi ps) = map (kx k) (side d ps).
  Proof.
    intros H. unfold side. rewrite filter_map, !map_map.
    rewrite (filter_ext _ (fun p => pos_closed p && dir_eqb (pos_dir p) d)%bool) by (intros p; rewrite Hclosed, Hdir; reflexivity).
    apply (map_ext_Forall _ _ fin_pos); [exact Hreal|]. apply Forall_filter, H.
  Qed.
  Lemma fin_side d ps : Forall fin_pos ps -> Forall finite (side d ps).
  Proof.
    intros H. unfold side. apply Forall_map, Forall_forall. intros p Hp. apply filter_In in Hp.
    apply fin_realised. rewrite Forall_forall in H. apply H, Hp.
  Qed.
  Lemma scaled_books : sigs <> [] -> scaled_results k (s_metrics s) (s_metrics s').
  Proof.
    intros NE. destruct T as [_ _ _ TA _ _ OP]. destruct T' as [_ _ _ TA' _ _ OP'].
    rewrite E in *. destruct TA, TA'. specialize (OP NE). specialize (OP' NE).
    pose proof (fin_profits _ FP) as FPR.
    unfold scaled_results. rewrite ta_net0, ta_gp0, ta_gl0, ta_n0, ta_w0, ta_l0, ta_long0, ta_short0.
    rewrite ta_net, ta_gp, ta_gl, ta_n, ta_w, ta_l, ta_long, ta_short.
    rewrite !scaled_profits, !scaled_side by exact FP.
    rewrite !(filter_map_finite won) by (first [exact FPR | intros; apply kx_won; assumption]).
    rewrite !(filter_map_finite lost) by (first [exact FPR | intros; apply kx_lost; assumption]).
    rewrite !map_length.
    repeat split; try (apply kx_total; first [apply fin_side; exact FP | exact FPR | apply Forall_filter; exact FPR]).
    - rewrite OP, OP'. unfold open_gain. rewrite newest_map.
      destruct (newest (pos_at cfg (c_data c) (c_index c) sigs)) as [p|] eqn:N; cbn [option_map].
      + rewrite Hclosed. destruct (pos_closed p); [apply (f_equal Fin); cbn; ring|]. apply Hopen; [exact NE|].
        rewrite Forall_forall in FP. apply FP. eapply nth_error_In; exact N.
      + apply (f_equal Fin); cbn; ring.
    - rewrite map_map, (map_ext_Forall _ (fun v => kx k (fabs v)) finite).
      + rewrite <- (map_map fabs (kx k)). apply kx_total. apply Forall_map.
        apply Forall_filter with (w := lost) in FPR. revert FPR. apply Forall_impl. intros v [r ->]. eexists; reflexivity.
      + intros v Hv. apply kx_abs; assumption.
      + apply Forall_filter, FPR.
  Qed.
End ScaledBooks.

Definition fin_order (o : @order xr) : Prop := finite (oprice o).
Lemma fin_enter cfg ps o : finite (sc_capital cfg) -> Forall fin_pos ps -> fin_order o -> fin_pos (enter cfg ps o).
Proof.
  intros K P O. unfold fin_pos. rewrite enter_in, enter_size, enter_out. cbn. split; [exact O|]. split; [|exact I].
  apply fin_size; assumption.
Qed.
Lemma fin_leave p o : fin_pos p -> fin_order o -> fin_pos (leave p o).
Proof. intros (A & B & _) O. unfold fin_pos. rewrite leave_in, leave_size, leave_out. auto. Qed.
Lemma fin_orders (cfg : sconfig xr) c sigs : real_prices c -> Forall fin_order (orders cfg (c_data c) (c_index c) sigs).
Proof.
  intros [P1 P2]. unfold orders. apply Forall_forall. intros o Ho.
  destruct (sc_on_close cfg); apply in_flat_map in Ho; destruct Ho as (k & _ & Ho); unfold order_at in Ho;
    (destruct (nth k sigs None); [destruct Ho as [<-|[]]; apply fin_quote; assumption|destruct Ho]).
Qed.
Lemma snoc_eq_nil {A} (l : list A) a : l ++ [a] <> [].
Proof. destruct l; discriminate. Qed.

(** ** C81: with equity sizing everything is proportional to the capital *)
Definition scale_size (k : R) (p : position xr) : position xr :=
  Pos (pos_dir p) (pos_in p) (kx k (pos_size p)) (pos_out p).
(** A trade with size and profit multiplied by [k]. *)
Definition scale_trade (k : R) (t : trade xr) : trade xr :=
  mkTrade (t_dir t) (t_closed t) (t_entry_tick t) (t_entry_price t) (t_exit_tick t) (t_exit_price t)
    (option_map (kx k) (t_fill t)) (kx k (t_pnl t)).
Lemma gain_scale_size k p x : fin_pos p -> finite x -> gain (scale_size k p) x = kx k (gain p x).
Proof.
  intros ([e He] & [z Hz] & _) [r ->]. unfold gain, scale_size. cbn [pos_in pos_size pos_dir]. rewrite He, Hz.
  destruct (pos_dir p); cbn; f_equal; ring.
Qed.
Lemma realised_scale_size k p : fin_pos p -> realised (scale_size k p) = kx k (realised p).
Proof.
  intros H. unfold realised. cbn [scale_size pos_out]. destruct (pos_out p) as [[t x]|] eqn:EO.
  - apply gain_scale_size; [exact H|]. destruct H as (_ & _ & H). rewrite EO in H. exact H.
  - apply (f_equal Fin). cbn. ring.
Qed.

Theorem C81_proportional (cfg : sconfig xr) a k c sigs x s s' : 0 < k -> sc_with_equity cfg = true ->
  sc_capital cfg = Fin a -> real_prices c ->
  after cfg c (sigs ++ [x]) s -> after (with_capital cfg (Fin (k * a))) c (sigs ++ [x]) s' ->
  s_trades s' = map (scale_trade k) (s_trades s) /\
  scaled_results k (s_metrics s) (s_metrics s') /\ sm_equity (s_metrics s') = kx k (sm_equity (s_metrics s)).
Proof.
  intros K WE CA RP A A'. pose proof (after_tracks _ _ _ _ A) as T. pose proof (after_tracks _ _ _ _ A') as T'.
  set (cfg' := with_capital cfg (Fin (k * a))) in *. set (xs := sigs ++ [x]) in *.
  assert (NE : xs <> []) by apply snoc_eq_nil.
  assert (FC : finite (sc_capital cfg)) by (exists a; exact CA).
  assert (FP : Forall fin_pos (pos_at cfg (c_data c) (c_index c) xs)) by (apply fin_pos_at; assumption).
  assert (E : pos_at cfg' (c_data c) (c_index c) xs = map (scale_size k) (pos_at cfg (c_data c) (c_index c) xs)).
  { unfold pos_at. replace (orders cfg' (c_data c) (c_index c) xs) with (orders cfg (c_data c) (c_index c) xs) by reflexivity.
    destruct (book_sim cfg cfg' (scale_size k) (fun o => o) fin_pos fin_order) with
      (os := orders cfg (c_data c) (c_index c) xs) as [E _]; try reflexivity.
    - intros p [[t y] d] _ _. reflexivity.
    - intros ps [[t y] d] Hps [r Hy]. cbn in Hy. subst y. unfold enter, scale_size, size_for. cbn [cfg' with_capital sc_with_equity sc_capital pos_dir pos_in pos_size pos_out].
      rewrite WE, CA. f_equal. rewrite scaled_profits with (k := k); [|reflexivity|apply realised_scale_size|exact Hps].
      rewrite kx_total by (apply fin_profits, Hps). destruct (fin_total _ (fin_profits _ Hps)) as (v & -> & _).
      rewrite kx_fin, fin_Z, !fin_add, !fin_le.
      destruct (Rleb_spec (a + v + 0) 0) as [H1|H1], (Rleb_spec (k * a + k * v + 0) 0) as [H2|H2]; cbn [orb]; try (exfalso; nra).
      + apply (f_equal Fin). ring.
      + destruct (Rleb_spec r 0); [apply (f_equal Fin); ring|]. rewrite !fin_div by lra. rewrite kx_fin. f_equal. field. lra.
    - intros ps o. apply fin_enter. exact FC.
    - intros p o. apply fin_leave.
    - apply fin_orders, RP.
    - rewrite map_id in E. symmetry. exact E. }
  assert (TR : s_trades s' = map (scale_trade k) (s_trades s)).
  { rewrite (tr_trades _ _ _ _ _ T), (tr_trades _ _ _ _ _ T'), E, !map_map. apply (map_ext_Forall _ _ fin_pos); [|exact FP].
    intros p Hp. unfold as_trade, scale_trade. cbn. f_equal. apply realised_scale_size, Hp. }
  split; [exact TR|].
  assert (SR : scaled_results k (s_metrics s) (s_metrics s')).
  { eapply (scaled_books k K cfg cfg' c c xs s s' (scale_size k)); try eassumption; try reflexivity.
    - apply realised_scale_size.
    - intros _ p Hp. apply gain_scale_size; [exact Hp|]. apply fin_quote, RP. }
  split; [exact SR|]. rewrite (tr_equity _ _ _ _ _ T), (tr_equity _ _ _ _ _ T').
  destruct xs as [|y ys]; [contradiction|]. destruct SR as (-> & SO & _). rewrite SO. cbn [cfg' with_capital sc_capital]. rewrite CA.
  rewrite (ta_net _ _ (tr_tally _ _ _ _ _ T)), (tr_open _ _ _ _ _ T) by exact NE.
  destruct (fin_total _ (fin_profits _ FP)) as (v & -> & _).
  assert (FO : finite (open_gain (pos_at cfg (c_data c) (c_index c) (y :: ys)) (quote (p_close (c_data c)) (c_index c + length (y :: ys) - 1)%nat))).
  { unfold open_gain. destruct (newest _) as [p|] eqn:N; [|eexists; reflexivity]. destruct (pos_closed p); [eexists; reflexivity|].
    apply fin_gain; [|apply fin_quote, RP]. rewrite Forall_forall in FP. apply FP. eapply nth_error_In; exact N. }
  destruct FO as [w ->]. rewrite !kx_fin, !fin_add, kx_fin. f_equal. ring.
Qed.

(** ** C82: prices in another currency, or shifted *)
(** The series with every price [x] replaced by [f x]. *)
Definition reprice (f : xr -> xr) (d : provider xr) : provider xr :=
  mkProvider (map (option_map f) (p_open d)) (map (option_map f) (p_high d)) (map (option_map f) (p_low d))
    (map (option_map f) (p_close d)) (p_volume d) (p_time d) (p_start d) (p_end d).
Definition reprice_ctx (f : xr -> xr) (c : ctx xr) : ctx xr :=
  mkCtx (reprice f (c_data c)) (c_first c) (c_last c) (c_bars c) (c_index c) (c_running c).
(** [k * x + b]. *)
Definition affx (k b : R) (v : xr) : xr := fadd (kx k v) (Fin b).

Lemma quote_reprice (f : xr -> xr) v i x : nth_error v i = Some (Some x) -> quote (map (option_map f) v) i = f (quote v i).
Proof. intros H. unfold quote. rewrite nth_error_map, H. reflexivity. Qed.
Lemma quote_fills (f : xr -> xr) (cfg : sconfig xr) c n : priced c n -> forall k, (k < n)%nat ->
  quote (fills cfg (reprice f (c_data c))) (c_index c + k) = f (quote (fills cfg (c_data c)) (c_index c + k)).
Proof.
  intros P k Hk. destruct (P k Hk) as [[o HO] [x HX]]. unfold fills. destruct (sc_on_close cfg); cbn [reprice p_open p_close];
    eapply quote_reprice; eassumption.
Qed.

Definition reprice_pos (f : xr -> xr) (z : R) (p : position xr) : position xr :=
  Pos (pos_dir p) (fst (pos_in p), f (snd (pos_in p))) (kx z (pos_size p)) (option_map (fun '(t, x) => (t, f x)) (pos_out p)).
(** A trade with its prices replaced, its size multiplied by [z] and its
    profit by [k]. *)
Definition reprice_trade (f : xr -> xr) (z k : R) (t : trade xr) : trade xr :=
  mkTrade (t_dir t) (t_closed t) (t_entry_tick t) (option_map f (t_entry_price t)) (t_exit_tick t) (option_map f (t_exit_price t))
    (option_map (kx z) (t_fill t)) (kx k (t_pnl t)).
Lemma gain_reprice a b z p x : fin_pos p -> finite x -> gain (reprice_pos (affx a b) z p) (affx a b x) = kx (a * z) (gain p x).
Proof.
  intros ([e He] & [w Hz] & _) [r ->]. unfold gain, reprice_pos. cbn [pos_in pos_size pos_dir snd]. rewrite He, Hz.
  destruct (pos_dir p); cbn; f_equal; ring.
Qed.
Lemma realised_reprice a b z p : fin_pos p -> realised (reprice_pos (affx a b) z p) = kx (a * z) (realised p).
Proof.
  intros H. unfold realised. cbn [reprice_pos pos_out]. destruct (pos_out p) as [[t x]|] eqn:EO; cbn [option_map].
  - apply gain_reprice; [exact H|]. destruct H as (_ & _ & H). rewrite EO in H. exact H.
  - apply (f_equal Fin). cbn. ring.
Qed.
Lemma reprice_closed f z p : pos_closed (reprice_pos f z p) = pos_closed p.
Proof. unfold pos_closed. cbn. destruct (pos_out p) as [[t x]|]; reflexivity. Qed.

Section C82.
  Variables (cfg : sconfig xr) (a b z : R) (c : ctx xr) (sigs : list (option direction)) (x : option direction) (s s' : strategy xr).
  Hypothesis AZ : 0 < a * z.
  Hypothesis FC : finite (sc_capital cfg).
  Hypothesis RP : real_prices c.
  Hypothesis PR : priced c (length (sigs ++ [x])).
  Hypothesis A : after cfg c (sigs ++ [x]) s.
  Hypothesis A' : after cfg (reprice_ctx (affx a b) c) (sigs ++ [x]) s'.
  Hypothesis HS : forall ps r, Forall fin_pos ps ->
    kx z (size_for cfg ps (Fin r)) = size_for cfg (map (reprice_pos (affx a b) z) ps) (affx a b (Fin r)).

  Lemma repriced : s_trades s' = map (reprice_trade (affx a b) z (a * z)) (s_trades s) /\
    scaled_results (a * z) (s_metrics s) (s_metrics s').
  Proof.
    pose proof (after_tracks _ _ _ _ A) as T. pose proof (after_tracks _ _ _ _ A') as T'.
    set (xs := sigs ++ [x]) in *. set (f := affx a b) in *.
    assert (NE : xs <> []) by apply snoc_eq_nil.
    assert (FP : Forall fin_pos (pos_at cfg (c_data c) (c_index c) xs)) by (apply fin_pos_at; assumption).
    assert (E : pos_at cfg (c_data (reprice_ctx f c)) (c_index (reprice_ctx f c)) xs = map (reprice_pos f z) (pos_at cfg (c_data c) (c_index c) xs)).
    { unfold pos_at. cbn [reprice_ctx c_data c_index].
      pose proof (orders_sim cfg cfg (c_data c) (reprice f (c_data c)) (c_index c) xs f (fun d => d) eq_refl (quote_fills f cfg c _ PR)) as EO.
      rewrite map_option_id in EO. rewrite EO.
      destruct (book_sim cfg cfg (reprice_pos f z) (re_order f (fun d => d)) fin_pos fin_order) with
        (os := orders cfg (c_data c) (c_index c) xs) as [EB _]; try reflexivity.
      - intros p; apply reprice_closed.
      - intros p [[t y] d] _ _. reflexivity.
      - intros ps [[t y] d] Hps [r Hy]. cbn in Hy. subst y. unfold enter. cbn [re_order fst snd]. unfold reprice_pos at 1. cbn [pos_dir pos_in pos_size pos_out fst snd option_map].
        rewrite (HS ps r Hps). reflexivity.
      - intros ps o. apply fin_enter. exact FC.
      - intros p o. apply fin_leave.
      - apply fin_orders, RP.
      - symmetry. exact EB. }
    split.
    { rewrite (tr_trades _ _ _ _ _ T), (tr_trades _ _ _ _ _ T'), E, !map_map. apply (map_ext_Forall _ _ fin_pos); [|exact FP].
      intros p Hp. unfold as_trade, reprice_trade. rewrite reprice_closed. unfold f. rewrite realised_reprice by exact Hp. cbn.
      f_equal; destruct (pos_out p) as [[t y]|]; reflexivity. }
    eapply (scaled_books (a * z) AZ cfg cfg c (reprice_ctx f c) xs s s' (reprice_pos f z)); try eassumption; try reflexivity.
    - intros p; apply reprice_closed.
    - intros p; apply realised_reprice.
    - intros _ p Hp. cbn [reprice_ctx c_data c_index reprice p_close].
      destruct (PR (length xs - 1)%nat) as [_ [y HY]]; [unfold xs; rewrite app_length; cbn [length]; lia|].
      assert (L : (c_index c + length xs - 1 = c_index c + (length xs - 1))%nat) by (unfold xs; rewrite app_length; cbn [length]; lia).
      rewrite L, (quote_reprice f _ _ y HY). apply gain_reprice; [exact Hp|]. apply fin_quote, RP.
  Qed.
End C82.

(** Fixed size: profits are multiplied by [k]; a shift does not matter. *)
Theorem C82_fixed_size (cfg : sconfig xr) k b c sigs x s s' : 0 < k -> sc_with_equity cfg = false ->
  finite (sc_capital cfg) -> real_prices c -> priced c (length (sigs ++ [x])) ->
  after cfg c (sigs ++ [x]) s -> after cfg (reprice_ctx (affx k b) c) (sigs ++ [x]) s' ->
  s_trades s' = map (reprice_trade (affx k b) 1 k) (s_trades s) /\ scaled_results k (s_metrics s) (s_metrics s').
Proof.
  intros K WE FC RP PR A A'.
  destruct (repriced cfg k b 1 c sigs x s s') as [H1 H2]; try assumption; [lra| |].
  - intros ps r _. unfold size_for. rewrite WE. apply (f_equal Fin). cbn. ring.
  - rewrite Rmult_1_r in H1, H2. split; assumption.
Qed.
(** Equity sizing: in another currency the sizes are divided by [k] and
    profits and equity are what they were. *)
Theorem C82_equity_size (cfg : sconfig xr) k c sigs x s s' : 0 < k -> sc_with_equity cfg = true ->
  finite (sc_capital cfg) -> real_prices c -> priced c (length (sigs ++ [x])) ->
  after cfg c (sigs ++ [x]) s -> after cfg (reprice_ctx (affx k 0) c) (sigs ++ [x]) s' ->
  s_trades s' = map (reprice_trade (affx k 0) (/ k) 1) (s_trades s) /\ scaled_results 1 (s_metrics s) (s_metrics s').
Proof.
  intros K WE FC RP PR A A'. assert (KI : k * / k = 1) by (field; lra).
  destruct (repriced cfg k 0 (/ k) c sigs x s s') as [H1 H2]; try assumption; [lra| |].
  - intros ps r Hps. destruct FC as [v FC]. unfold size_for. rewrite WE, FC.
    rewrite scaled_profits with (k := 1); [| intros p; apply reprice_closed | | exact Hps].
    2:{ intros p Hp. rewrite <- KI. apply realised_reprice, Hp. }
    rewrite kx_total by (apply fin_profits, Hps). destruct (fin_total _ (fin_profits _ Hps)) as (w & -> & _).
    unfold affx. rewrite !kx_fin, fin_Z, !fin_add, !fin_le. rewrite Rmult_1_l.
    destruct (Rleb_spec (v + w + 0) 0) as [H1|H1]; cbn [orb]; [apply (f_equal Fin); ring|].
    destruct (Rleb_spec r 0) as [H2|H2], (Rleb_spec (k * r + 0) 0) as [H3|H3]; try (exfalso; nra); [apply (f_equal Fin); ring|].
    rewrite !fin_div by nra. rewrite kx_fin. f_equal. field. split; lra.
  - rewrite KI in H1, H2. split; assumption.
Qed.

(** ** C83: mirrored signals *)
Definition mirror (sigs : list (option direction)) : list (option direction) := map (option_map get_opposite) sigs.
Lemma dir_eqb_opposite a b : dir_eqb (get_opposite a) (get_opposite b) = dir_eqb a b.
Proof. destruct a, b; reflexivity. Qed.

Section C83_any.
  Context {F : Type} {NF : Num F}.
  (** The other direction, the opposite profit. *)
  Definition mirror_trade (t : trade F) : trade F :=
    mkTrade (get_opposite (t_dir t)) (t_closed t) (t_entry_tick t) (t_entry_price t) (t_exit_tick t) (t_exit_price t)
      (t_fill t) (if t_closed t then fneg (t_pnl t) else t_pnl t).
  Definition mirror_pos (p : position F) : position F :=
    Pos (get_opposite (pos_dir p)) (pos_in p) (pos_size p) (pos_out p).
  Hypothesis unit_law : forall v : F, (v * fZ (-1) = fneg (v * fZ 1))%num.
  Hypothesis unit_law' : forall v : F, (v * fZ 1 = fneg (v * fZ (-1)))%num.
  Lemma gain_mirror (p : position F) x : gain (mirror_pos p) x = fneg (gain p x).
  Proof. unfold gain. cbn [mirror_pos pos_in pos_size pos_dir]. destruct (pos_dir p); cbn [get_opposite sign]; [apply unit_law|apply unit_law']. Qed.
  Lemma mirror_pos_at (cfg : sconfig F) d i0 sigs : sc_with_equity cfg = false ->
    pos_at cfg d i0 (mirror sigs) = map mirror_pos (pos_at cfg d i0 sigs).
  Proof.
    intros WE. unfold pos_at, mirror.
    rewrite (orders_sim cfg cfg d d i0 sigs (fun x => x) get_opposite eq_refl (fun _ _ => eq_refl)).
    destruct (book_sim cfg cfg mirror_pos (re_order (fun x => x) get_opposite) (fun _ => True) (fun _ => True)) with
        (os := orders cfg d i0 sigs) as [EB _]; try reflexivity; try (intros; exact I).
    - intros p o. apply dir_eqb_opposite.
    - intros p [[t y] e] _ _. reflexivity.
    - intros ps [[t y] e] _ _. unfold enter, size_for, mirror_pos. rewrite WE. reflexivity.
    - apply Forall_forall. intros; exact I.
    - symmetry. exact EB.
  Qed.
  Lemma mirror_trades (cfg : sconfig F) c sigs s s' : sc_with_equity cfg = false ->
    after cfg c sigs s -> after cfg c (mirror sigs) s' -> s_trades s' = map mirror_trade (s_trades s).
  Proof.
    intros WE A A'. rewrite (tr_trades _ _ _ _ _ (after_tracks _ _ _ _ A)), (tr_trades _ _ _ _ _ (after_tracks _ _ _ _ A')).
    rewrite mirror_pos_at, !map_map by exact WE. apply map_ext. intros p. unfold as_trade, mirror_trade.
    cbn [t_dir t_closed t_entry_tick t_entry_price t_exit_tick t_exit_price t_fill t_pnl].
    change (pos_closed (mirror_pos p)) with (pos_closed p). change (pos_in (mirror_pos p)) with (pos_in p).
    change (pos_out (mirror_pos p)) with (pos_out p). change (pos_size (mirror_pos p)) with (pos_size p). f_equal.
    unfold realised, pos_closed. cbn [mirror_pos pos_out]. destruct (pos_out p) as [[t x]|] eqn:EO; cbn [is_some]; [|reflexivity].
    apply gain_mirror.
  Qed.
End C83_any.

(** Bit for bit in f64: the same trades in the other direction, every realised
    profit exactly negated. *)
Theorem C83_mirror_f64 log10 (cfg : sconfig f64) c sigs s s' : let _ := IEEE log10 in sc_with_equity cfg = false ->
  after cfg c sigs s -> after cfg c (mirror sigs) s' -> s_trades s' = map mirror_trade (s_trades s).
Proof.
  intros N WE A A'. apply (@mirror_trades f64 N) with (cfg := cfg) (c := c) (sigs := sigs); try assumption.
  - intros v. cbn. rewrite f64_mul_1, f64_mul_m1. reflexivity.
  - intros v. cbn. rewrite f64_mul_1, f64_mul_m1, BinarySingleNaN.Bopp_involutive. reflexivity.
Qed.

(** In exact arithmetic the totals are mirrored as well. *)
Definition mirrored_results (m m' : smetrics xr) : Prop :=
  sm_net m' = fneg (sm_net m) /\ sm_open m' = fneg (sm_open m) /\
  sm_gross_profit m' = sm_gross_loss m /\ sm_gross_loss m' = sm_gross_profit m /\
  sm_long_net m' = fneg (sm_short_net m) /\ sm_short_net m' = fneg (sm_long_net m) /\
  sm_closed m' = sm_closed m /\ sm_winning m' = sm_losing m /\ sm_losing m' = sm_winning m.
Lemma neg_kx v : finite v -> fneg v = kx (-1) v.
Proof. intros [r ->]. apply (f_equal Fin). ring. Qed.
Lemma fneg_0 : fneg (fZ 0 : xr) = fZ 0.
Proof. apply (f_equal Fin). cbn. ring. Qed.
Lemma xr_unit (v : xr) : (v * fZ (-1) = fneg (v * fZ 1))%num.
Proof.
  destruct v as [r| | |]; [apply (f_equal Fin); cbn; ring| | |reflexivity]; cbn; unfold rsgn;
    repeat (match goal with |- context[Rlt_dec ?a ?b] => destruct (Rlt_dec a b) end; try lra); reflexivity.
Qed.
Lemma xr_unit' (v : xr) : (v * fZ 1 = fneg (v * fZ (-1)))%num.
Proof. rewrite xr_unit. destruct (v * fZ 1)%num; cbn; try reflexivity. rewrite Ropp_involutive. reflexivity. Qed.

Lemma neg_total l : Forall finite l -> total (map fneg l) = fneg (total l).
Proof.
  intros H. rewrite (map_ext_Forall _ (kx (-1)) finite) by (first [exact neg_kx|exact H]).
  rewrite kx_total by exact H. symmetry. apply neg_kx. destruct (fin_total _ H) as (r & -> & _). exists r; reflexivity.
Qed.

Theorem C83_mirror (cfg : sconfig xr) c sigs x s s' : sc_with_equity cfg = false -> finite (sc_capital cfg) -> real_prices c ->
  after cfg c (sigs ++ [x]) s -> after cfg c (mirror (sigs ++ [x])) s' ->
  s_trades s' = map mirror_trade (s_trades s) /\ mirrored_results (s_metrics s) (s_metrics s').
Proof.
  intros WE FC RP A A'. split; [exact (mirror_trades xr_unit xr_unit' cfg c _ s s' WE A A')|].
  pose proof (after_tracks _ _ _ _ A) as T. pose proof (after_tracks _ _ _ _ A') as T'.
  set (xs := sigs ++ [x]) in *. assert (NE : xs <> []) by apply snoc_eq_nil.
  assert (NE' : mirror xs <> []) by (unfold mirror; destruct xs; [contradiction|discriminate]).
  pose proof (fin_pos_at cfg c xs FC RP) as FP.
  destruct T as [_ _ _ TA _ _ OP]. destruct T' as [_ _ _ TA' _ _ OP'].
  specialize (OP NE). specialize (OP' NE'). rewrite mirror_pos_at in * by exact WE.
  set (ps := pos_at cfg (c_data c) (c_index c) xs) in *. destruct TA, TA'.
  assert (GM : forall (p : position xr) y, gain (mirror_pos p) y = fneg (gain p y)) by (apply gain_mirror; [apply xr_unit|apply xr_unit']).
  assert (RM : forall p : position xr, realised (mirror_pos p) = fneg (realised p)).
  { intros p. unfold realised. cbn [mirror_pos pos_out]. destruct (pos_out p) as [[t y]|]; [apply GM|symmetry; apply fneg_0]. }
  assert (PR : profits (map mirror_pos ps) = map fneg (profits ps)).
  { unfold profits. rewrite filter_map, !map_map. apply map_ext. exact RM. }
  assert (SI : forall d, side d (map mirror_pos ps) = map fneg (side (get_opposite d) ps)).
  { intros d. unfold side. rewrite filter_map, !map_map.
    rewrite (filter_ext _ (fun p => pos_closed p && dir_eqb (pos_dir p) (get_opposite d))%bool); [apply map_ext; exact RM|].
    intros p. change (pos_closed (mirror_pos p)) with (pos_closed p). cbn [mirror_pos pos_dir]. destruct (pos_dir p), d; reflexivity. }
  assert (FPR : Forall finite (profits ps)) by (apply fin_profits, FP).
  assert (WL : filter won (map fneg (profits ps)) = map fneg (filter lost (profits ps)) /\
               filter lost (map fneg (profits ps)) = map fneg (filter won (profits ps))).
  { clear - FPR. induction FPR as [|v l [r ->] _ [I1 I2]]; [split; reflexivity|]. cbn [map filter].
    assert (W1 : won (fneg (Fin r)) = lost (Fin r) /\ lost (fneg (Fin r)) = won (Fin r)).
    { unfold won, lost. rewrite fin_neg, fin_Z, !fin_lt.
      destruct (Rltb_spec 0 r), (Rltb_spec r 0), (Rltb_spec 0 (- r)), (Rltb_spec (- r) 0); try lra; split; reflexivity. }
    destruct W1 as [-> ->]. rewrite I1, I2. destruct (lost (Fin r)), (won (Fin r)); split; reflexivity. }
  destruct WL as [W L].
  unfold mirrored_results. rewrite ta_net0, ta_gp0, ta_gl0, ta_n0, ta_w0, ta_l0, ta_long0, ta_short0.
  rewrite ta_net, ta_gp, ta_gl, ta_n, ta_w, ta_l, ta_long, ta_short. rewrite PR, !SI, W, L, !map_length. cbn [get_opposite].
  repeat split; try (apply neg_total; first [exact FPR | apply fin_side; exact FP]).
  - rewrite OP, OP'. unfold mirror. rewrite map_length. unfold open_gain. rewrite newest_map.
    destruct (newest ps) as [p|]; cbn [option_map]; [|symmetry; apply fneg_0].
    change (pos_closed (mirror_pos p)) with (pos_closed p). destruct (pos_closed p); [symmetry; apply fneg_0|apply GM].
  - f_equal. apply map_ext_in. intros v Hv. apply filter_In in Hv. destruct Hv as [Hv Lv].
    rewrite Forall_forall in FPR. destruct (FPR v Hv) as [r ->]. unfold lost in Lv. rewrite fin_Z, !fin_lt in Lv.
    destruct (Rltb_spec 0 r), (Rltb_spec r 0); try discriminate. rewrite fin_neg, fin_abs, Rabs_left by lra. reflexivity.
  - rewrite map_map. f_equal. rewrite <- (map_id (filter won (profits ps))) at 2. apply map_ext_in. intros v Hv. apply filter_In in Hv. destruct Hv as [Hv Wv].
    rewrite Forall_forall in FPR. destruct (FPR v Hv) as [r ->]. unfold won in Wv. rewrite fin_Z, !fin_lt in Wv.
    destruct (Rltb_spec 0 r); try discriminate. rewrite fin_neg, fin_abs, Rabs_left by lra. rewrite Ropp_involutive. reflexivity.
Qed.

(** ** C84: repeating a signal changes nothing in continuous mode *)
(** The most recent signal of a history. *)
Definition latest (sigs : list (option direction)) : option direction :=
  fold_left (fun h x => match x with Some d => Some d | None => h end) sigs None.
Definition repeats (h : option direction) (d : direction) : bool :=
  match h with Some e => dir_eqb e d | None => false end.
(** The history without the signals that repeat the one before. *)
Definition quiet (sigs : list (option direction)) : list (option direction) :=
  map (fun k => match nth k sigs None with
                | Some d => if repeats (latest (firstn k sigs)) d then None else Some d
                | None => None
                end) (seq 0 (length sigs)).
Lemma quiet_length sigs : length (quiet sigs) = length sigs.
Proof. unfold quiet. rewrite map_length, seq_length. reflexivity. Qed.
Lemma quiet_nth sigs k : (k < length sigs)%nat -> nth k (quiet sigs) None =
  match nth k sigs None with
  | Some d => if repeats (latest (firstn k sigs)) d then None else Some d
  | None => None
  end.
Proof.
  intros H. unfold quiet. erewrite nth_indep by (rewrite map_length, seq_length; exact H).
  rewrite (map_nth (fun k => match nth k sigs None with Some d => if repeats (latest (firstn k sigs)) d then None else Some d | None => None end) _ O).
  rewrite seq_nth by exact H. reflexivity.
Qed.
Lemma firstn_S_nth {A} (l : list A) k a : (k < length l)%nat -> firstn (S k) l = firstn k l ++ [nth k l a].
Proof.
  revert k. induction l as [|x l IH]; intros k H; [inversion H|]. destruct k as [|k]; [reflexivity|].
  cbn [firstn nth app]. f_equal. apply IH. cbn in H. lia.
Qed.
Lemma seq_snoc n : seq 0 (S n) = seq 0 n ++ [n].
Proof. rewrite seq_S. reflexivity. Qed.

Section C84.
  Context {F : Type} {NF : Num F}.
  Lemma quiet_book (cfg : sconfig F) v off sigs n : sc_continuous cfg = true -> (n <= length sigs)%nat ->
    let os q := flat_map (fun k => order_at v (off k) (nth k q None)) (seq 0 n) in
    book cfg (os (quiet sigs)) = book cfg (os sigs) /\
    match latest (firstn n sigs) with
    | None => book cfg (os sigs) = []
    | Some d => exists p, newest (book cfg (os sigs)) = Some p /\ pos_closed p = false /\ pos_dir p = d
    end.
  Proof.
    intros CO. induction n as [|n IH]; intros L; [split; reflexivity|].
    destruct IH as [E N]; [lia|]. cbn zeta in *. rewrite seq_snoc, !flat_map_snoc. unfold book in *. rewrite !fold_left_app, E.
    rewrite quiet_nth by lia. rewrite (firstn_S_nth _ _ None) by lia. unfold latest in *. rewrite fold_left_app. cbn [fold_left].
    set (h := fold_left _ (firstn n sigs) None) in *. set (ps := fold_left (place cfg) (flat_map (fun k => order_at v (off k) (nth k sigs None)) (seq 0 n)) []) in *.
    destruct (nth n sigs None) as [d|]; [|split; [reflexivity|exact N]].
    assert (NP : forall o, snd o = d -> exists p, newest (place cfg ps o) = Some p /\ pos_closed p = false /\ pos_dir p = d).
    { intros o Ho. destruct (place_cases cfg ps o) as [(-> & _ & _ & CL)|(old & p & EP & CL & [(D & -> & _)|(_ & _ & [(_ & -> & _)|(CF & _)])])].
      - exists (enter cfg ps o). rewrite newest_snoc. split; [reflexivity|]. split; [apply enter_closed|]. rewrite enter_dir. exact Ho.
      - exists p. rewrite EP, newest_snoc. split; [reflexivity|]. split; [exact CL|]. rewrite D. exact Ho.
      - exists (enter cfg (old ++ [leave p o]) o). rewrite app_assoc, newest_snoc. split; [reflexivity|]. split; [apply enter_closed|]. rewrite enter_dir. exact Ho.
      - congruence. }
    cbn [order_at fold_left]. split.
    - destruct (repeats h d) eqn:RE; [|reflexivity]. cbn [order_at fold_left]. unfold repeats in RE. destruct h as [e|]; [|discriminate].
      destruct N as (p & N & CL & D). unfold place. rewrite N, CL. cbn [snd]. rewrite D, RE. reflexivity.
    - apply NP. reflexivity.
  Qed.

  Theorem C84_repeats (cfg : sconfig F) c sigs s s' : sc_continuous cfg = true ->
    after cfg c sigs s -> after cfg c (quiet sigs) s' ->
    s_trades s' = s_trades s /\ same_results (s_metrics s) (s_metrics s') /\ sm_equity (s_metrics s') = sm_equity (s_metrics s).
  Proof.
    intros CO A A'. pose proof (after_tracks _ _ _ _ A) as T. pose proof (after_tracks _ _ _ _ A') as T'.
    assert (E : pos_at cfg (c_data c) (c_index c) (quiet sigs) = pos_at cfg (c_data c) (c_index c) sigs).
    { unfold pos_at, orders. rewrite quiet_length. destruct (sc_on_close cfg).
      - apply (quiet_book cfg (p_close (c_data c)) (fun k => c_index c + k)%nat sigs (length sigs) CO). lia.
      - apply (quiet_book cfg (p_open (c_data c)) (fun k => c_index c + k + 1)%nat sigs (length sigs - 1) CO). lia. }
    split; [rewrite (tr_trades _ _ _ _ _ T), (tr_trades _ _ _ _ _ T'), E; reflexivity|].
    destruct sigs as [|x sigs]; [|set (xs := x :: sigs) in *].
    - destruct A as [o R], A' as [o' R']. cbn in R, R'. injection R as <- _. injection R' as <- _. repeat split.
    - assert (NE : xs <> []) by discriminate.
      assert (SR : same_results (s_metrics s) (s_metrics s')) by (eapply same_tallies; [exact T|exact T'|symmetry; apply quiet_length|exact NE|exact E]).
      split; [exact SR|]. rewrite (tr_equity _ _ _ _ _ T), (tr_equity _ _ _ _ _ T').
      destruct SR as (-> & -> & _). destruct (quiet xs) eqn:Q; [apply (f_equal (@length _)) in Q; rewrite quiet_length in Q; discriminate|reflexivity].
  Qed.
End C84.

(** ** C85: equity moves only with the prices of what is held *)
(** The signed number of shares held: the size of the open trade, negative
    when short; 0 when flat. *)
Definition holding (ts : list (trade xr)) : R :=
  match newest ts with
  | Some t => if t_closed t then 0
              else match t_fill t with Some f => real f * (match t_dir t with Long => 1 | Short => -1 end) | None => 0 end
  | None => 0
  end.
Definition held_shares (ps : list (position xr)) : R :=
  match newest ps with
  | Some p => if pos_closed p then 0 else real (pos_size p) * (match pos_dir p with Long => 1 | Short => -1 end)
  | None => 0
  end.
Lemma holding_shares ps : holding (map as_trade ps) = held_shares ps.
Proof. unfold holding, held_shares. rewrite newest_map. destruct (newest ps); reflexivity. Qed.
Definition worth (ps : list (position xr)) (x : xr) : R := real (total (profits ps)) + real (open_gain ps x).

Lemma real_gain p x : fin_pos p -> finite x ->
  real (gain p x) = (real x - real (snd (pos_in p))) * real (pos_size p) * (match pos_dir p with Long => 1 | Short => -1 end).
Proof. intros ([e He] & [z Hz] & _) [r ->]. unfold gain. rewrite He, Hz. destruct (pos_dir p); cbn; ring. Qed.
Lemma open_gain_move ps x y : Forall fin_pos ps -> finite x -> finite y ->
  real (open_gain ps y) = real (open_gain ps x) + held_shares ps * (real y - real x).
Proof.
  intros H X Y. unfold open_gain, held_shares. destruct (newest ps) as [p|] eqn:N; [|cbn; ring].
  destruct (pos_closed p); [cbn; ring|]. assert (P : fin_pos p) by (rewrite Forall_forall in H; apply H; eapply nth_error_In; exact N).
  rewrite !real_gain by assumption. ring.
Qed.
Lemma total_snoc_real l v : Forall finite l -> finite v -> real (total (l ++ [v])) = real (total l) + real v.
Proof. intros H [r ->]. rewrite total_snoc. destruct (fin_total _ H) as (t & -> & _). reflexivity. Qed.

(** Filling an order at its own price creates no value. *)
Lemma place_worth cfg ps o : finite (sc_capital cfg) -> Forall fin_pos ps -> fin_order o ->
  worth (place cfg ps o) (oprice o) = worth ps (oprice o).
Proof.
  intros FC FP FO. unfold worth.
  assert (G0 : forall ps', Forall fin_pos ps' -> real (gain (enter cfg ps' o) (oprice o)) = 0).
  { intros ps' H. rewrite real_gain; [|apply fin_enter; assumption|exact FO]. rewrite enter_in. cbn [snd]. ring. }
  destruct (place_cases cfg ps o) as [(-> & _ & _ & CL)|(old & p & -> & CL & [(_ & -> & _)|(_ & _ & H)])].
  - rewrite profits_open by apply enter_closed. unfold open_gain at 1. rewrite newest_snoc, enter_closed.
    rewrite (G0 ps FP).
    unfold open_gain. destruct (newest ps) as [p|]; [rewrite CL by reflexivity|]; reflexivity.
  - reflexivity.
  - pose proof FP as FP0. apply Forall_app in FP. destruct FP as [F1 F2]. inversion F2 as [|? ? Fp _]; subst.
    assert (FL : Forall fin_pos (old ++ [leave p o])).
    { apply Forall_app; split; [exact F1|]. constructor; [apply fin_leave; assumption|constructor]. }
    assert (LC : pos_closed (leave p o) = true) by (unfold pos_closed; rewrite leave_out; reflexivity).
    assert (RL : realised (leave p o) = gain p (oprice o)).
    { unfold realised. rewrite leave_out. unfold gain. rewrite leave_in, leave_size, leave_dir. reflexivity. }
    assert (TT : real (total (profits (old ++ [leave p o]))) = real (total (profits (old ++ [p]))) + real (gain p (oprice o))).
    { rewrite profits_closed by exact LC. rewrite profits_open by exact CL. rewrite RL.
      apply total_snoc_real; [apply fin_profits, F1|apply fin_gain; assumption]. }
    assert (OG : open_gain (old ++ [p]) (oprice o) = gain p (oprice o)) by (unfold open_gain; rewrite newest_snoc, CL; reflexivity).
    rewrite OG. destruct H as [(_ & -> & _)|(_ & -> & _)].
    + rewrite app_assoc, profits_open by apply enter_closed. rewrite TT.
      unfold open_gain. rewrite newest_snoc, enter_closed. rewrite (G0 _ FL). ring.
    + rewrite TT. unfold open_gain. rewrite newest_snoc, LC. cbn [real fZ]. cbn. ring.
Qed.

(** From one bar to the next the equity changes by what was held times the move
    from the last close to the fill price, plus what is held now times the move
    from the fill price to this close.  (When signals fill at the close the
    second term is zero; when nothing fills the two holdings are equal and the
    change is the holding times the move from close to close.) *)
Theorem C85_mark_to_market (cfg : sconfig xr) c sigs x s1 s2 :
  finite (sc_capital cfg) -> real_prices c -> after cfg c sigs s1 -> after cfg c (sigs ++ [x]) s2 ->
  let i := (c_index c + length sigs)%nat in
  let close0 := real (quote (p_close (c_data c)) (i - 1)) in
  let close1 := real (quote (p_close (c_data c)) i) in
  let fill := real (quote (fill_column cfg c) i) in
  finite (sm_equity (s_metrics s1)) /\ finite (sm_equity (s_metrics s2)) /\
  real (sm_equity (s_metrics s2)) = real (sm_equity (s_metrics s1)) +
    holding (s_trades s1) * (fill - close0) + holding (s_trades s2) * (close1 - fill).
Proof.
  intros FC RP A1 A2. cbn zeta.
  pose proof (after_tracks _ _ _ _ A1) as T1. pose proof (after_tracks _ _ _ _ A2) as T2.
  pose proof (fin_pos_at cfg c sigs FC RP) as F1. pose proof (fin_pos_at cfg c (sigs ++ [x]) FC RP) as F2.
  rewrite (tr_trades _ _ _ _ _ T1), (tr_trades _ _ _ _ _ T2), !holding_shares.
  set (i := (c_index c + length sigs)%nat).
  set (ps1 := pos_at cfg (c_data c) (c_index c) sigs) in *. set (ps2 := pos_at cfg (c_data c) (c_index c) (sigs ++ [x])) in *.
  assert (Q0 : forall j, finite (quote (p_close (c_data c)) j)) by (intros j; apply fin_quote, RP).
  assert (QF : finite (quote (fill_column cfg c) i)) by (unfold fill_column; destruct (sc_on_close cfg); apply fin_quote, RP).
  assert (FO : forall ps y, Forall fin_pos ps -> finite y -> finite (open_gain ps y)).
  { intros ps y H Y. unfold open_gain. destruct (newest ps) as [p|] eqn:N; [|eexists; reflexivity].
    destruct (pos_closed p); [eexists; reflexivity|]. apply fin_gain; [|exact Y]. rewrite Forall_forall in H. apply H. eapply nth_error_In; exact N. }
  destruct FC as [a CA].
  (* the equity of a book *)
  assert (EQ : forall sg s, tracks cfg (c_data c) (c_index c) sg s -> Forall fin_pos (pos_at cfg (c_data c) (c_index c) sg) -> sg <> [] ->
     sm_equity (s_metrics s) = Fin (a + worth (pos_at cfg (c_data c) (c_index c) sg) (quote (p_close (c_data c)) (c_index c + length sg - 1)))).
  { intros sg s T FP NE. rewrite (tr_equity _ _ _ _ _ T). destruct sg as [|y sg]; [contradiction|]. set (xs := y :: sg) in *.
    rewrite (ta_net _ _ (tr_tally _ _ _ _ _ T)), (tr_open _ _ _ _ _ T) by exact NE. unfold worth.
    destruct (fin_total _ (fin_profits _ FP)) as (v & -> & _). destruct (FO _ (quote (p_close (c_data c)) (c_index c + length xs - 1)) FP (Q0 _)) as [w ->].
    rewrite CA, !fin_add. f_equal. cbn [real]. ring. }
  assert (E2 : sm_equity (s_metrics s2) = Fin (a + worth ps2 (quote (p_close (c_data c)) i))).
  { rewrite (EQ _ _ T2 F2) by apply snoc_eq_nil. rewrite app_length. cbn [length].
    replace (c_index c + (length sigs + 1) - 1)%nat with i by (unfold i; lia). reflexivity. }
  assert (E1 : sm_equity (s_metrics s1) = Fin (a + worth ps1 (quote (p_close (c_data c)) (i - 1)))).
  { destruct sigs as [|y ys]; [|rewrite (EQ _ _ T1 F1) by discriminate; unfold i; reflexivity].
    rewrite (tr_equity _ _ _ _ _ T1), CA. replace ps1 with (@nil (position xr)).
    - unfold worth. cbn. f_equal. ring.
    - unfold ps1, pos_at, orders. destruct (sc_on_close cfg); reflexivity. }
  split; [eexists; exact E1|]. split; [eexists; exact E2|]. rewrite E1, E2. cbn [real].
  set (f := quote (fill_column cfg c) i) in *.
  assert (W : worth ps2 f = worth ps1 f).
  { unfold ps2. rewrite pos_at_snoc. fold ps1. destruct (new_order cfg (c_data c) (c_index c) sigs x) as [|o os] eqn:NO; [reflexivity|].
    assert (OP : oprice o = f).
    { unfold new_order, order_at in NO. unfold f, fill_column. fold i in NO.
      destruct (sc_on_close cfg); [destruct x|destruct (last sigs None)]; inversion NO; reflexivity. }
    rewrite <- OP. apply place_worth; [exists a; exact CA|exact F1|]. unfold fin_order. rewrite OP. exact QF. }
  unfold worth in *. rewrite (open_gain_move ps2 f (quote (p_close (c_data c)) i) F2 QF (Q0 _)).
  rewrite (open_gain_move ps1 (quote (p_close (c_data c)) (i - 1)) f F1 (Q0 _) QF) in W. lra.
Qed.

(** ** C86: with equity sizing returns compound *)
Definition positive_prices (c : ctx xr) : Prop :=
  (forall x, In (Some x) (p_open (c_data c)) -> exists r, x = Fin r /\ 0 < r) /\
  (forall x, In (Some x) (p_close (c_data c)) -> exists r, x = Fin r /\ 0 < r).
(** What an equity of [e] invested in trade [t] becomes: multiplied by
    exit/entry for a long, by 2 - exit/entry for a short (the value when the
    price has risen by r is 1 - r); an open trade is valued at [now]; equity
    that is not positive buys nothing. *)
Definition compound (now e : R) (t : trade xr) : R :=
  if Rle_dec e 0 then e
  else
    let entry := match t_entry_price t with Some x => real x | None => 0 end in
    let exit := match t_exit_price t with Some x => real x | None => now end in
    match t_dir t with
    | Long => e * (exit / entry)
    | Short => e * (2 - exit / entry)
    end.

Definition sound_pos (p : position xr) : Prop :=
  (exists e, snd (pos_in p) = Fin e /\ 0 < e) /\ finite (pos_size p) /\
  match pos_out p with Some (_, x) => exists r, x = Fin r /\ 0 < r | None => True end.
Definition sound_order (o : @order xr) : Prop := exists r, oprice o = Fin r /\ 0 < r.
Lemma sound_fin p : sound_pos p -> fin_pos p.
Proof.
  intros ((e & He & _) & Z & O). split; [exists e; exact He|]. split; [exact Z|].
  destruct (pos_out p) as [[t x]|]; [|exact I]. destruct O as (r & -> & _). exists r; reflexivity.
Qed.
Lemma sound_fins ps : Forall sound_pos ps -> Forall fin_pos ps.
Proof. apply Forall_impl, sound_fin. Qed.
Lemma sound_book (cfg : sconfig xr) c sigs : finite (sc_capital cfg) -> positive_prices c -> priced c (length sigs) ->
  Forall sound_pos (pos_at cfg (c_data c) (c_index c) sigs).
Proof.
  intros FC [PO PC] PR. unfold pos_at.
  destruct (book_sim cfg cfg (fun p => p) (fun o => o) sound_pos sound_order) with
    (os := orders cfg (c_data c) (c_index c) sigs) as [_ H]; try reflexivity.
  - intros ps o _ _. rewrite map_id. reflexivity.
  - intros ps o Hps (r & Hr & R0). unfold sound_pos. rewrite enter_in, enter_size, enter_out. cbn [snd].
    split; [exists r; auto|]. split; [|exact I]. apply fin_size; [exact FC|apply sound_fins, Hps|exists r; exact Hr].
  - intros p o (E & Z & _) O. unfold sound_pos. rewrite leave_in, leave_size, leave_out. auto.
  - apply Forall_forall. intros o Ho. unfold orders in Ho.
    assert (Q : forall k, (k < length sigs)%nat ->
      (exists r, quote (p_open (c_data c)) (c_index c + k) = Fin r /\ 0 < r) /\ (exists r, quote (p_close (c_data c)) (c_index c + k) = Fin r /\ 0 < r)).
    { intros k Hk. destruct (PR k Hk) as [[o1 H1] [x1 H2]]. unfold quote. rewrite H1, H2.
      split; [apply PO|apply PC]; eapply nth_error_In; eassumption. }
    destruct (sc_on_close cfg); apply in_flat_map in Ho; destruct Ho as (k & Hk & Ho); apply in_seq in Hk; unfold order_at in Ho;
      (destruct (nth k sigs None); [destruct Ho as [<-|[]]|destruct Ho]); unfold sound_order, oprice; cbn [fst snd].
    + apply Q; lia.
    + rewrite <- Nat.add_assoc. apply Q; lia.
  - exact H.
Qed.

(** The value of one sound position bought with equity [e]. *)
Lemma compound_gain (cfg : sconfig xr) a ps p x now : sc_with_equity cfg = true -> sc_capital cfg = Fin a -> Forall sound_pos ps ->
  sound_pos p -> pos_size p = size_for cfg ps (snd (pos_in p)) ->
  x = match pos_out p with Some (_, y) => real y | None => now end ->
  a + real (total (profits ps)) + real (gain p (Fin x)) = compound now (a + real (total (profits ps))) (as_trade p).
Proof.
  intros WE CA HPS HP HZ HX. rewrite real_gain; [|apply sound_fin, HP|eexists; reflexivity].
  destruct HP as ((e & He & E0) & _ & _). rewrite HZ. unfold size_for. rewrite WE, CA.
  destruct (fin_total _ (fin_profits _ (sound_fins _ HPS))) as (v & -> & _). rewrite fin_Z, !fin_add. rewrite He. rewrite !fin_le.
  unfold compound. cbn [as_trade t_entry_price t_exit_price t_dir real]. rewrite He. cbn [real].
  assert (EX : match option_map snd (pos_out p) with Some y => real y | None => now end = x).
  { rewrite HX. destruct (pos_out p) as [[t y]|]; reflexivity. }
  rewrite EX. destruct (Rle_dec (a + v) 0) as [L|L], (Rleb_spec (a + v + 0) 0) as [L'|L']; try lra; cbn [orb].
  - cbn [real]. cbn. ring.
  - destruct (Rleb_spec e 0); [lra|]. rewrite fin_div by lra. cbn [real]. destruct (pos_dir p); field; lra.
Qed.
Lemma profits_snoc_all ps p : Forall sound_pos ps -> sound_pos p ->
  real (total (profits (ps ++ [p]))) = real (total (profits ps)) + (if pos_closed p then real (realised p) else 0).
Proof.
  intros H HP. destruct (pos_closed p) eqn:C.
  - rewrite profits_closed by exact C. apply total_snoc_real; [apply fin_profits, sound_fins, H|apply fin_realised, sound_fin, HP].
  - rewrite profits_open by exact C. ring.
Qed.
(** All positions of a prefix of the book closed: their value compounds. *)
Lemma compound_prefix (cfg : sconfig xr) a ps now : sc_with_equity cfg = true -> sc_capital cfg = Fin a -> Forall sound_pos ps ->
  (forall i p, nth_error ps i = Some p -> pos_size p = size_for cfg (firstn i ps) (snd (pos_in p))) ->
  forallb pos_closed ps = true ->
  a + real (total (profits ps)) = fold_left (compound now) (map as_trade ps) a.
Proof.
  intros WE CA. induction ps as [|p ps IH] using rev_ind; intros HS HZ HC; [cbn; ring|].
  apply Forall_app in HS. destruct HS as [HS HP]. inversion HP as [|? ? Hp _]; subst.
  rewrite forallb_app in HC. apply andb_true_iff in HC. destruct HC as [HC CP]. cbn [forallb] in CP. rewrite andb_true_r in CP.
  rewrite map_app, fold_left_app. cbn [map fold_left].
  rewrite <- IH; [|exact HS| |exact HC].
  - rewrite profits_snoc_all by assumption. rewrite CP.
    assert (EX : exists t y, pos_out p = Some (t, Fin y)).
    { unfold pos_closed in CP. destruct Hp as (_ & _ & Ho). destruct (pos_out p) as [[t y]|]; [|discriminate CP].
      destruct Ho as (r & -> & _). exists t, r; reflexivity. }
    destruct EX as (t & y & EX). unfold realised. rewrite EX.
    rewrite <- (compound_gain cfg a ps p y now); try assumption; [ring| |rewrite EX; reflexivity].
    rewrite (HZ (length ps) p); [|rewrite nth_error_app2, Nat.sub_diag by lia; reflexivity].
    rewrite firstn_app, Nat.sub_diag, firstn_all. cbn [firstn]. rewrite app_nil_r. reflexivity.
  - intros i q Hq. assert (L : (i < length ps)%nat) by (apply nth_error_Some; congruence).
    rewrite (HZ i q) by (rewrite nth_error_app1 by exact L; exact Hq). rewrite firstn_snoc_le by lia. reflexivity.
Qed.

Theorem C86_compounding (cfg : sconfig xr) a c sigs x s : sc_with_equity cfg = true -> sc_capital cfg = Fin a ->
  positive_prices c -> priced c (length (sigs ++ [x])) -> after cfg c (sigs ++ [x]) s ->
  sm_equity (s_metrics s) =
    Fin (fold_left (compound (real (quote (p_close (c_data c)) (c_index c + length sigs)))) (s_trades s) a).
Proof.
  intros WE CA PP PR A. pose proof (after_tracks _ _ _ _ A) as T. set (xs := sigs ++ [x]) in *.
  assert (NE : xs <> []) by apply snoc_eq_nil.
  assert (FC : finite (sc_capital cfg)) by (exists a; exact CA).
  pose proof (sound_book cfg c xs FC PP PR) as SB.
  destruct (pos_at_sane cfg (c_data c) (c_index c) xs) as [SN _].
  rewrite (tr_equity _ _ _ _ _ T). destruct xs as [|y ys] eqn:EX; [contradiction|]. rewrite <- EX in *. clear EX y ys.
  rewrite (ta_net _ _ (tr_tally _ _ _ _ _ T)), (tr_open _ _ _ _ _ T) by exact NE. rewrite (tr_trades _ _ _ _ _ T).
  replace (c_index c + length xs - 1)%nat with (c_index c + length sigs)%nat by (unfold xs; rewrite app_length; cbn [length]; lia).
  set (now := quote (p_close (c_data c)) (c_index c + length sigs)).
  assert (FN : finite now).
  { apply fin_quote. intros v Hv. destruct (proj2 PP v Hv) as (r & -> & _). exists r; reflexivity. }
  set (ps := pos_at cfg (c_data c) (c_index c) xs) in *.
  pose proof (sn_size _ _ _ _ SN) as HZ.
  destruct (fin_total _ (fin_profits _ (sound_fins _ SB))) as (v & TV & _).
  destruct ps as [|p old _] using rev_ind.
  - unfold open_gain. rewrite CA. cbn. f_equal. ring.
  - pose proof SB as SB0. apply Forall_app in SB. destruct SB as [SO SP]. inversion SP as [|? ? Sp _]; subst.
    pose proof (sane_closed_prefix _ _ _ _ _ SN) as CO.
    unfold open_gain. rewrite newest_snoc. destruct (pos_closed p) eqn:CP.
    + rewrite <- (compound_prefix cfg a (old ++ [p]) (real now)); try assumption.
      * rewrite TV, CA, fin_Z, !fin_add. f_equal. cbn [real]. ring.
      * rewrite forallb_app, CO. cbn. rewrite CP. reflexivity.
    + rewrite map_app, fold_left_app. cbn [map fold_left].
      rewrite <- (compound_prefix cfg a old (real now)); try assumption.
      * destruct FN as [w FN]. rewrite FN. cbn [real].
        rewrite <- (compound_gain cfg a old p w); try assumption.
        -- rewrite profits_open in * by exact CP. rewrite TV, CA. destruct (fin_gain p (Fin w) (sound_fin _ Sp)) as [g G]; [exists w; reflexivity|].
           rewrite G, !fin_add. reflexivity.
        -- rewrite (HZ (length old) p); [|rewrite nth_error_app2, Nat.sub_diag by lia; reflexivity].
           rewrite firstn_app, Nat.sub_diag, firstn_all. cbn [firstn]. rewrite app_nil_r. reflexivity.
        -- unfold pos_closed in CP. destruct (pos_out p); [discriminate|reflexivity].
      * intros i q Hq. assert (L : (i < length old)%nat) by (apply nth_error_Some; congruence).
        rewrite (HZ i q) by (rewrite nth_error_app1 by exact L; exact Hq). rewrite firstn_snoc_le by lia. reflexivity.
Qed.

(** A history that never goes short cannot lose everything. *)
Theorem C86_long_only (cfg : sconfig xr) a c sigs x s : sc_with_equity cfg = true -> sc_capital cfg = Fin a -> 0 < a ->
  positive_prices c -> priced c (length (sigs ++ [x])) -> after cfg c (sigs ++ [x]) s ->
  (forall t, In t (s_trades s) -> t_dir t = Long) ->
  exists e, sm_equity (s_metrics s) = Fin e /\ 0 < e.
Proof.
  intros WE CA A0 PP PR A HL. rewrite (C86_compounding cfg a c sigs x s) by assumption. eexists. split; [reflexivity|].
  assert (FC : finite (sc_capital cfg)) by (exists a; exact CA).
  pose proof (sound_book cfg c _ FC PP PR) as SB. rewrite (tr_trades _ _ _ _ _ (after_tracks _ _ _ _ A)) in *.
  assert (NP : 0 < real (quote (p_close (c_data c)) (c_index c + length sigs))).
  { destruct (PR (length sigs)) as [_ [y HY]]; [rewrite app_length; cbn [length]; lia|].
    unfold quote. rewrite HY. destruct (proj2 PP y (nth_error_In _ _ HY)) as (r & -> & R0). exact R0. }
  set (now := real (quote _ _)) in *. revert a CA A0 HL. clear - SB NP. intros a _. revert a.
  induction SB as [|p ps ((e & He & E0) & _ & Ho) _ IH]; intros a A0 HL; [exact A0|].
  cbn [map fold_left]. apply IH; [|intros t Ht; apply HL; right; exact Ht].
  unfold compound. destruct (Rle_dec a 0) as [L|L]; [lra|]. rewrite (HL (as_trade p)) by (left; reflexivity).
  cbn [as_trade t_entry_price t_exit_price]. rewrite He. cbn [real].
  apply Rmult_lt_0_compat; [lra|]. apply Rdiv_lt_0_compat; [|exact E0].
  destruct (pos_out p) as [[t y]|]; cbn [option_map snd]; [|exact NP]. destruct Ho as (r & -> & R0). exact R0.
Qed.

Lemma nth_error_ext {A} (l l' : list A) : (forall i, nth_error l i = nth_error l' i) -> l = l'.
Proof.
  revert l'. induction l as [|x l IH]; intros [|y l'] H; try reflexivity; try (discriminate (H 0%nat)).
  f_equal; [pose proof (H 0%nat) as E; cbn in E; congruence|]. apply IH. intros i. exact (H (S i)).
Qed.
Lemma nth_error_firstn {A} n (l : list A) i : nth_error (firstn n l) i = if (i <? n)%nat then nth_error l i else None.
Proof.
  destruct (Nat.ltb_spec i n) as [L|L]; [apply nth_error_firstn_lt, L|].
  apply nth_error_None. pose proof (firstn_le_length n l). lia.
Qed.

(** Out of money: flat with equity at or below zero, the equity never changes
    again and every later trade has size zero. *)
Theorem C86_ruin (cfg : sconfig xr) a c xs x ys y s1 s2 e : sc_with_equity cfg = true -> sc_capital cfg = Fin a ->
  positive_prices c -> priced c (length ((xs ++ [x]) ++ ys ++ [y])) ->
  after cfg c (xs ++ [x]) s1 -> after cfg c ((xs ++ [x]) ++ ys ++ [y]) s2 ->
  forallb t_closed (s_trades s1) = true -> sm_equity (s_metrics s1) = Fin e -> e <= 0 ->
  sm_equity (s_metrics s2) = Fin e /\
  exists later, s_trades s2 = s_trades s1 ++ later /\ forall t, In t later -> t_fill t = Some (Fin 0).
Proof.
  intros WE CA PP PR A1 A2 CL EQ E0.
  assert (PR1 : priced c (length (xs ++ [x]))).
  { intros k Hk. apply PR. rewrite !app_length in *. lia. }
  assert (PREF : exists later, s_trades s2 = s_trades s1 ++ later).
  { exists (skipn (length (s_trades s1)) (s_trades s2)).
    rewrite <- (firstn_skipn (length (s_trades s1)) (s_trades s2)) at 1. f_equal.
    apply nth_error_ext. intros i. destruct (Nat.lt_ge_cases i (length (s_trades s1))) as [L|L].
    - destruct (nth_error (s_trades s1) i) as [t|] eqn:N; [|apply nth_error_None in N; lia].
      destruct (C28_history_kept cfg c _ _ s1 s2 A1 A2 i t N) as (t' & N' & K & _).
      rewrite forallb_forall in CL. rewrite (K (CL t (nth_error_In _ _ N))) in N'.
      rewrite nth_error_firstn. destruct (i <? length (s_trades s1))%nat eqn:B; [exact N'|apply Nat.ltb_ge in B; lia].
    - transitivity (@None (trade xr)); [|symmetry; apply nth_error_None; exact L].
      apply nth_error_None. pose proof (firstn_le_length (length (s_trades s1)) (s_trades s2)). lia. }
  destruct PREF as [later EL].
  pose proof (C86_compounding cfg a c xs x s1 WE CA PP PR1 A1) as Q1. rewrite EQ in Q1. injection Q1 as Q1.
  rewrite app_assoc in PR, A2.
  pose proof (C86_compounding cfg a c ((xs ++ [x]) ++ ys) y s2 WE CA PP PR A2) as Q2.
  assert (ST : forall now l b, b <= 0 -> fold_left (compound now) l b = b).
  { intros now l. induction l as [|t l IH]; intros b B; [reflexivity|]. cbn [fold_left]. unfold compound at 2.
    destruct (Rle_dec b 0); [apply IH, B|lra]. }
  assert (SAME : forall now now', fold_left (compound now) (s_trades s1) a = fold_left (compound now') (s_trades s1) a).
  { intros now now'. assert (G : forall l b, (forall t, In t l -> t_exit_price t <> None) -> fold_left (compound now) l b = fold_left (compound now') l b).
    { induction l as [|t l IH]; intros b H; [reflexivity|]. cbn [fold_left]. rewrite IH by (intros; apply H; right; assumption). f_equal.
      unfold compound. destruct (t_exit_price t) eqn:EXP; [reflexivity|]. exfalso. apply (H t); [left; reflexivity|exact EXP]. }
    apply G. intros t Ht. rewrite forallb_forall in CL. pose proof (CL t Ht) as CT.
    rewrite (tr_trades _ _ _ _ _ (after_tracks _ _ _ _ A1)) in Ht. apply in_map_iff in Ht. destruct Ht as (p & <- & _).
    cbn in *. unfold pos_closed in CT. destruct (pos_out p) as [[? ?]|]; [discriminate|discriminate CT]. }
  rewrite EL, fold_left_app in Q2.
  rewrite (SAME _ (real (quote (p_close (c_data c)) (c_index c + length xs)))), <- Q1 in Q2. rewrite ST in Q2 by exact E0.
  split; [exact Q2|]. exists later. split; [exact EL|].
  intros t Ht. apply In_nth_error in Ht. destruct Ht as [j Hj].
  assert (N : nth_error (s_trades s2) (length (s_trades s1) + j) = Some t).
  { rewrite EL, nth_error_app2 by lia. replace (length (s_trades s1) + j - length (s_trades s1))%nat with j by lia. exact Hj. }
  pose proof (C35_size cfg c _ s2 A2 _ _ N) as SZ. rewrite WE in SZ. cbn zeta in SZ. destruct SZ as (FCL & price & _ & SZ).
  set (n := (length (s_trades s1) + j)%nat) in *.
  (* the equity before that trade is again [e] *)
  assert (EQN : fadd (fadd (sc_capital cfg) (total (map t_pnl (firstn n (s_trades s2))))) (fZ 0) = Fin e).
  { pose proof (after_tracks _ _ _ _ A2) as T2.
    assert (FC : finite (sc_capital cfg)) by (exists a; exact CA).
    pose proof (sound_book cfg c _ FC PP PR) as SB2.
    destruct (pos_at_sane cfg (c_data c) (c_index c) (((xs ++ [x]) ++ ys) ++ [y])) as [SN _].
    pose proof (tr_trades _ _ _ _ _ T2) as TR. set (ps := pos_at cfg (c_data c) (c_index c) (((xs ++ [x]) ++ ys) ++ [y])) in *.
    assert (PF : forallb pos_closed (firstn n ps) = true).
    { rewrite TR, firstn_map in FCL. rewrite forallb_forall in *. intros p Hp. apply (FCL (as_trade p)). apply in_map. exact Hp. }
    assert (SBF : Forall sound_pos (firstn n ps)).
    { rewrite Forall_forall in *. intros p Hp. apply SB2. rewrite <- (firstn_skipn n ps). apply in_or_app. left. exact Hp. }
    pose proof (compound_prefix cfg a (firstn n ps) (real (quote (p_close (c_data c)) (c_index c + length xs))) WE CA SBF) as CP.
    rewrite <- firstn_map, <- TR, EL in CP.
    assert (FN : firstn n (s_trades s1 ++ later) = s_trades s1 ++ firstn j later).
    { unfold n. rewrite firstn_app_2. reflexivity. }
    rewrite FN, fold_left_app, <- Q1, ST in CP by exact E0.
    assert (PM : map t_pnl (firstn n (s_trades s2)) = profits (firstn n ps)).
    { rewrite TR, firstn_map, map_map. unfold profits.
      assert (FI : filter pos_closed (firstn n ps) = firstn n ps).
      { clear - PF. induction (firstn n ps) as [|p l IH]; [reflexivity|]. cbn [forallb filter] in *. apply andb_true_iff in PF. destruct PF as [-> PF]. rewrite IH by exact PF. reflexivity. }
      rewrite FI. reflexivity. }
    rewrite PM. destruct (fin_total _ (fin_profits _ (sound_fins _ SBF))) as (v & TV & _). rewrite TV in *. cbn [real] in CP.
    rewrite CA, fin_Z, !fin_add. f_equal. rewrite <- CP; [ring| |exact PF].
    intros i p Hp. pose proof Hp as Hp'. rewrite nth_error_firstn in Hp'. destruct (i <? n)%nat eqn:B; [|discriminate]. apply Nat.ltb_lt in B.
    rewrite (sn_size _ _ _ _ SN i p Hp'). rewrite firstn_firstn. replace (Nat.min i n) with i by lia. reflexivity. }
  rewrite EQN in SZ. rewrite SZ. f_equal. rewrite fin_Z, fin_le. destruct (Rleb_spec e 0); [reflexivity|lra].
Qed.

(** ** The hypotheses are met *)
(** Five bars (open, close): (10,11) (12,13) (9,8) (7,6) (8,10); the signals of
    [sig5] trade both ways, in every configuration. *)
Definition data5 : provider xr :=
  let o := map (fun z => Some (Fin (IZR z))) [10; 12; 9; 7; 8]%Z in
  let x := map (fun z => Some (Fin (IZR z))) [11; 13; 8; 6; 10]%Z in
  mkProvider o o o x x [] 0 4.
Definition ctx5 : ctx xr := mkCtx data5 0 4 5 0 true.
Definition sig5 : list (option direction) := [Some Long; Some Long; Some Short; None; Some Long].
Definition cfg5 (on_close cont eq : bool) : sconfig xr := mkSConfig on_close cont (Fin 100) eq.
Ltac bars := repeat (match goal with H : _ \/ _ |- _ => destruct H as [H|H] end); try contradiction.
Lemma ctx5_positive : positive_prices ctx5.
Proof. split; intros x H; cbn in H; bars; injection H as <-; eexists; (split; [reflexivity|lra]). Qed.
Lemma ctx5_real : real_prices ctx5.
Proof.
  destruct ctx5_positive as [P1 P2].
  split; intros x H; [destruct (P1 x H) as (r & -> & _)|destruct (P2 x H) as (r & -> & _)]; exists r; reflexivity.
Qed.
Lemma ctx5_priced n : (n <= 5)%nat -> priced ctx5 n.
Proof. intros H k Hk. do 5 (destruct k as [|k]; [split; eexists; reflexivity|]). lia. Qed.
Lemma ctx5_repriced k b n : (n <= 5)%nat -> priced (reprice_ctx (affx k b) ctx5) n.
Proof. intros H j Hj. do 5 (destruct j as [|j]; [split; eexists; reflexivity|]). lia. Qed.
(** Every configuration runs over it, and over its variants... *)
Example C79_C86_runs oc co eq :
  (exists s, after (cfg5 oc co eq) ctx5 sig5 s) /\ (exists s, after (with_capital (cfg5 oc co eq) (Fin (2 * 100))) ctx5 sig5 s) /\
  (exists s, after (cfg5 oc co eq) ctx5 (mirror sig5) s) /\ (exists s, after (cfg5 oc co eq) ctx5 (quiet sig5) s) /\
  (forall k b, exists s, after (cfg5 oc co eq) (reprice_ctx (affx k b) ctx5) sig5 s) /\
  (exists s, after (cfg5 oc co eq) ctx5 [None; None; None] s).
Proof.
  repeat split; intros; apply C28_runs; first [apply ctx5_repriced | apply ctx5_priced]; cbn; lia.
Qed.
(** ... and trades: in continuous mode Long, then Short. *)
Example C79_C86_trades eq s : after (cfg5 false true eq) ctx5 sig5 s -> map t_dir (s_trades s) = [Long; Short].
Proof. intros A. rewrite (tr_trades _ _ _ _ _ (after_tracks _ _ _ _ A)). reflexivity. Qed.
Example C84_quiet_ex : quiet sig5 = [Some Long; None; Some Short; None; Some Long].
Proof. reflexivity. Qed.
(** Buying 100 worth at the open of the second bar (12) and reversing at the
    open of the fourth (7): 100 * 7/12, then short from 7, valued at 10. *)
Example C86_ex s : after (cfg5 false true true) ctx5 sig5 s ->
  sm_equity (s_metrics s) = Fin (100 * (7 / 12) * (2 - 10 / 7)).
Proof.
  intros A. rewrite (C86_compounding (cfg5 false true true) 100 ctx5 [Some Long; Some Long; Some Short; None] (Some Long) s); try reflexivity;
    [|exact ctx5_positive|apply ctx5_priced; cbn; lia|exact A].
  rewrite (tr_trades _ _ _ _ _ (after_tracks _ _ _ _ A)).
  set (ts := map as_trade _).
  assert (E : exists f1 f2 p1 p2, ts =
    [mkTrade Long true (Some 1%nat) (Some (Fin 12)) (Some 3%nat) (Some (Fin 7)) f1 p1;
     mkTrade Short false (Some 3%nat) (Some (Fin 7)) None None f2 p2]) by (repeat eexists).
  destruct E as (f1 & f2 & p1 & p2 & ->). cbn [fold_left].
  assert (C1 : compound 10 100 (mkTrade Long true (Some 1%nat) (Some (Fin 12)) (Some 3%nat) (Some (Fin 7)) f1 p1) = 100 * (7 / 12)).
  { unfold compound. destruct (Rle_dec 100 0); [lra|]. cbn. lra. }
  change (real _) with 10. rewrite C1. unfold compound. destruct (Rle_dec (100 * (7 / 12)) 0); [lra|]. reflexivity.
Qed.
(** Ruin is reachable: short at 1 (bar 1), covered at 4 (bar 2). *)
Definition ctx4 : ctx xr :=
  let o := map (fun z => Some (Fin (IZR z))) [1; 1; 4; 4; 4]%Z in mkCtx (mkProvider o o o o o [] 0 4) 0 4 5 0 true.
Example C86_ruin_ex s : after (cfg5 false false true) ctx4 [Some Short; Some Long; None] s ->
  forallb t_closed (s_trades s) = true /\ exists e, sm_equity (s_metrics s) = Fin e /\ e <= 0.
Proof.
  assert (P4 : positive_prices ctx4) by (split; intros x H; cbn in H; bars; injection H as <-; eexists; (split; [reflexivity|lra])).
  intros A. split; [rewrite (tr_trades _ _ _ _ _ (after_tracks _ _ _ _ A)); reflexivity|].
  rewrite (C86_compounding (cfg5 false false true) 100 ctx4 [Some Short; Some Long] None s); try reflexivity;
    [|exact P4| |exact A].
  2:{ intros k Hk. do 3 (destruct k as [|k]; [split; eexists; reflexivity|]). cbn in Hk. lia. }
  eexists. split; [reflexivity|]. rewrite (tr_trades _ _ _ _ _ (after_tracks _ _ _ _ A)). set (ts := map as_trade _).
  assert (E : exists f1 p1, ts = [mkTrade Short true (Some 1%nat) (Some (Fin 1)) (Some 2%nat) (Some (Fin 4)) f1 p1]) by (repeat eexists).
  destruct E as (f1 & p1 & ->). cbn [fold_left]. unfold compound. destruct (Rle_dec 100 0); [lra|]. cbn. lra.
Qed.
(** In f64 the equity stays bit for bit at the capital. *)
Theorem C79_flat_equity_f64 log10 (cfg : sconfig f64) c sigs s : let _ := IEEE log10 in
  sc_capital cfg <> BinarySingleNaN.B754_zero true ->
  after cfg c sigs s -> (forall x, In x sigs -> x = None) -> sm_equity (s_metrics s) = sc_capital cfg.
Proof.
  intros N NZ A HN. destruct (C79_no_signal (NF := N) _ _ _ _ A HN) as (_ & _ & _ & H). cbn zeta in H.
  destruct H as (_ & _ & _ & _ & _ & _ & _ & _ & _ & [->| ->]); [reflexivity|].
  change (fadd (Num := N)) with (BinarySingleNaN.Bplus (prec := 53) (emax := 1024) BinarySingleNaN.mode_NE).
  change (fZ (NF := N) 0) with (f64_ofZ 0). rewrite !f64_add_0; [reflexivity|exact NZ|]. rewrite f64_add_0; exact NZ.
Qed.
