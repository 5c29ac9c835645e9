(** * PropWin: property C116. *)
From Flocq Require Import Core IEEE754.BinarySingleNaN Plus_error.
From Verif Require Export PropStrategy PropMetrics PMono PIeee2.
From Verif Require Import PIeee.
From Coq Require Import Lra Psatz.
Local Open Scope R_scope.

(** ** Signs of rounded results *)
Section Signs.
  Notation fexp64 := (SpecFloat.fexp 53 1024).
  Notation rnd r := (round radix2 fexp64 (round_mode mode_NE) r).
  Notation top := (bpow radix2 1024).
  Notation zero := (f64_ofZ 0).

  Lemma minus_plus (x y : f64) : Bminus mode_NE x y = Bplus mode_NE x (Bopp y).
  Proof. destruct x, y; reflexivity. Qed.
  Lemma opp_finite (y : f64) : is_finite (Bopp y) = is_finite y.
  Proof. destruct y; reflexivity. Qed.
  Lemma minus_rounded (x y : f64) : is_finite x = true -> is_finite y = true -> rounded (Bminus mode_NE x y) (B2R x - B2R y).
  Proof.
    intros A B. rewrite minus_plus. replace (B2R x - B2R y) with (B2R x + B2R (Bopp y)) by (rewrite B2R_Bopp; lra).
    apply plus_rounded; [exact A|rewrite opp_finite; exact B].
  Qed.
  Lemma ltb_zero_fin (z : f64) : is_finite z = true -> (Bltb zero z = true <-> 0 < B2R z) /\ (Bltb z zero = true <-> B2R z < 0).
  Proof.
    intros Fz. change zero with (B754_zero false : f64). split.
    - rewrite Bltb_correct by (exact Fz || reflexivity). cbn. destruct (Rlt_bool_spec 0 (B2R z)); split; intros; try lra; try discriminate; reflexivity.
    - rewrite Bltb_correct by (exact Fz || reflexivity). cbn. destruct (Rlt_bool_spec (B2R z) 0); split; intros; try lra; try discriminate; reflexivity.
  Qed.
  Lemma sign_rounded (z : f64) r : rounded z r -> (Bltb zero z = true <-> 0 < rnd r) /\ (Bltb z zero = true <-> rnd r < 0).
  Proof.
    assert (T : 0 < top) by apply bpow_gt_0.
    intros [(Fz & <- & _)|[[-> H]|[-> H]]].
    - apply ltb_zero_fin, Fz.
    - split; [split; [lra|reflexivity]|split; [discriminate|lra]].
    - split; [split; [discriminate|lra]|split; [lra|reflexivity]].
  Qed.
  Lemma rnd_pos_big r e : (-1074 <= e < 1024)%Z -> bpow radix2 e <= r -> 0 < rnd r.
  Proof.
    intros E H. apply Rlt_le_trans with (bpow radix2 e); [apply bpow_gt_0|].
    apply rnd_le in H. erewrite round_generic in H; [exact H|apply valid_rnd_round_mode|].
    apply generic_format_bpow. unfold SpecFloat.fexp, SpecFloat.emin. lia.
  Qed.
  Lemma rnd_opp r : rnd (- r) = - rnd r.
  Proof. apply round_NE_opp. Qed.
  (** A difference of two floats is positive exactly when it rounds to a positive one. *)
  Lemma sub_sign (x y : f64) : is_finite x = true -> is_finite y = true ->
    (0 < rnd (B2R x - B2R y) <-> B2R y < B2R x) /\ (rnd (B2R x - B2R y) < 0 <-> B2R x < B2R y).
  Proof.
    intros Fx Fy.
    assert (G : forall a b : f64, B2R b < B2R a -> 0 < rnd (B2R a - B2R b)).
    { intros a b L. destruct (rnd_0_ge (B2R a - B2R b) ltac:(lra)) as [Q|Q]; [exact Q|exfalso].
      apply (round_plus_neq_0 radix2 fexp64 (round_mode mode_NE) (B2R a) (- B2R b)).
      - apply generic_format_B2R.
      - apply generic_format_opp, generic_format_B2R.
      - lra.
      - symmetry. exact Q. }
    assert (Gn : forall a b : f64, B2R a < B2R b -> rnd (B2R a - B2R b) < 0).
    { intros a b L. specialize (G b a L). replace (B2R a - B2R b) with (- (B2R b - B2R a)) by lra. rewrite rnd_opp. lra. }
    assert (G0 : B2R x = B2R y -> rnd (B2R x - B2R y) = 0) by (intros ->; rewrite Rminus_diag_eq by reflexivity; apply round_0, valid_rnd_round_mode).
    destruct (Rtotal_order (B2R x) (B2R y)) as [L|[E|L]].
    - specialize (Gn _ _ L). split; split; intros; lra.
    - specialize (G0 E). split; split; intros; lra.
    - specialize (G _ _ L). split; split; intros; lra.
  Qed.
  (** and then it is at least a sixteenth of the real difference *)
  Lemma sub_part (x y : f64) : is_finite x = true -> is_finite y = true -> B2R y < B2R x -> (B2R x - B2R y) / 16 <= rnd (B2R x - B2R y).
  Proof.
    intros Fx Fy L. destruct (sub_sign x y Fx Fy) as [[_ PS] _]. specialize (PS L).
    set (r := B2R x - B2R y) in *. pose proof (rnd_err r) as E. assert (P : 0 < r) by (unfold r; lra).
    destruct (Rle_or_lt (bpow radix2 (-1070)) r) as [B|B].
    - rewrite (Rabs_pos_eq r) in E by lra. apply Rabs_le_inv in E.
      assert (U : u64 <= 1 / 4). { unfold u64. apply Rle_trans with (bpow radix2 (-2)); [apply bpow_le; lia|cbn; lra]. }
      assert (T : eta64 <= r / 4). { apply Rle_trans with (bpow radix2 (-1070) / 4); [|lra]. unfold eta64.
        apply Rle_trans with (bpow radix2 (-1072)); [apply bpow_le; lia|]. change (-1072)%Z with (-1070 + -2)%Z. rewrite bpow_plus. change (bpow radix2 (-2)) with (/ 4). lra. }
      nra.
    - apply Rle_trans with (bpow radix2 (-1074)).
      + apply Rle_trans with (bpow radix2 (-1070) / 16); [lra|]. change (-1074)%Z with (-1070 + -4)%Z. rewrite bpow_plus. change (bpow radix2 (-4)) with (/ 16). lra.
      + apply (generic_format_ge_bpow radix2 fexp64 (-1074)); [intros e; unfold SpecFloat.fexp, SpecFloat.emin; lia|exact PS|].
        apply generic_format_round; [apply (fexp_correct 53 1024 eq_refl)|apply valid_rnd_round_mode].
  Qed.

  Lemma opp_lt_l (z : f64) : Bltb zero (Bopp z) = Bltb z zero.
  Proof. destruct z as [[]|[]| |[] m e H]; reflexivity. Qed.
  Lemma opp_lt_r (z : f64) : Bltb (Bopp z) zero = Bltb zero z.
  Proof. destruct z as [[]|[]| |[] m e H]; reflexivity. Qed.

  (** the size is 1, or the exact result is not absurdly small *)
  Definition sizeable (size : f64) (d : R) : Prop :=
    size = f64_ofZ 1 \/ (is_finite size = true /\ 0 <= B2R size /\ (d = 0 \/ bpow radix2 (-1000) <= Rabs d * B2R size)).
  Lemma product_sign (x y size : f64) : is_finite x = true -> is_finite y = true -> sizeable size (B2R x - B2R y) ->
    let p := Bmult mode_NE (Bminus mode_NE x y) size in
    (Bltb zero p = true <-> B2R y < B2R x) /\ (Bltb p zero = true <-> B2R x < B2R y).
  Proof.
    intros Fx Fy SZ p. pose proof (minus_rounded x y Fx Fy) as MR. destruct (sub_sign x y Fx Fy) as [S1 S2].
    destruct (sign_rounded _ _ MR) as [G1 G2]. unfold p. clear p.
    destruct SZ as [-> | (Fs & P0 & SZ)].
    - rewrite f64_mul_1. rewrite G1, G2. auto.
    - set (d := Bminus mode_NE x y) in *. 
      assert (PS : B2R x <> B2R y -> 0 < B2R size).
      { intros NE. destruct SZ as [Q|Q]; [lra|]. destruct P0 as [P0|P0]; [exact P0|]. rewrite <- P0, Rmult_0_r in Q.
        pose proof (bpow_gt_0 radix2 (-1000)). lra. }
      destruct MR as [(Fd & Ed & _)|[[Hd H]|[Hd H]]].
      + pose proof (mult_rounded d size Fd Fs) as MR. destruct (sign_rounded _ _ MR) as [K1 K2]. rewrite K1, K2, Ed.
        destruct (Rtotal_order (B2R x) (B2R y)) as [L|[E|L]].
        * pose proof (sub_part y x Fy Fx L) as SP. replace (B2R x - B2R y) with (- (B2R y - B2R x)) in * by lra.
          rewrite rnd_opp. rewrite <- Ropp_mult_distr_l, rnd_opp.
          assert (G : 0 < rnd (rnd (B2R y - B2R x) * B2R size)).
          { apply (rnd_pos_big _ (-1004)); [lia|]. destruct SZ as [Q|Q]; [lra|]. rewrite Rabs_Ropp, Rabs_pos_eq in Q by lra.
            change (-1004)%Z with (-1000 + -4)%Z. rewrite bpow_plus. change (bpow radix2 (-4)) with (/ 16). nra. }
          split; split; intros; lra.
        * rewrite E, Rminus_diag_eq by reflexivity. rewrite (round_0 radix2 fexp64), Rmult_0_l, (round_0 radix2 fexp64) by apply valid_rnd_round_mode. split; split; intros; lra.
        * pose proof (sub_part x y Fx Fy L) as SP.
          assert (G : 0 < rnd (rnd (B2R x - B2R y) * B2R size)).
          { apply (rnd_pos_big _ (-1004)); [lia|]. destruct SZ as [Q|Q]; [lra|]. rewrite Rabs_pos_eq in Q by lra.
            change (-1004)%Z with (-1000 + -4)%Z. rewrite bpow_plus. change (bpow radix2 (-4)) with (/ 16). nra. }
          split; split; intros; lra.
      + rewrite Hd. assert (T : 0 < top) by apply bpow_gt_0. assert (Q : B2R y < B2R x) by (apply S1; lra).
        assert (PZ : 0 < B2R size) by (apply PS; lra).
        destruct size as [| | |s m e Hb]; try discriminate Fs; [cbn in PZ; lra|]. destruct s; [pose proof (F2R_lt_0 radix2 (Float radix2 (Z.neg m) e) ltac:(cbn; lia)); cbn in PZ; lra|].
        cbn. split; split; intros; try lra; try discriminate; reflexivity.
      + rewrite Hd. assert (T : 0 < top) by apply bpow_gt_0. assert (Q : B2R x < B2R y) by (apply S2; lra).
        assert (PZ : 0 < B2R size) by (apply PS; lra).
        destruct size as [| | |s m e Hb]; try discriminate Fs; [cbn in PZ; lra|]. destruct s; [pose proof (F2R_lt_0 radix2 (Float radix2 (Z.neg m) e) ltac:(cbn; lia)); cbn in PZ; lra|].
        cbn. split; split; intros; try lra; try discriminate; reflexivity.
  Qed.
End Signs.

(** ** Where the prices and sizes of the trades come from *)
Section Quoted.
  Context {F : Type} {NF : Num F}.
  Definition quoted (cfg : sconfig F) (v : list (option F)) (p : position F) : Prop :=
    snd (pos_in p) = quote v (fst (pos_in p)) /\ (exists ps, pos_size p = size_for cfg ps (snd (pos_in p))) /\
    match pos_out p with Some (t, x) => x = quote v t | None => True end.
  Lemma pos_quoted cfg c sigs : Forall (quoted cfg (fill_column cfg c)) (pos_at cfg (c_data c) (c_index c) sigs).
  Proof.
    induction sigs as [|x sigs IH] using rev_ind.
    - unfold pos_at, orders. destruct (sc_on_close cfg); constructor.
    - rewrite pos_at_snoc. destruct (new_order cfg (c_data c) (c_index c) sigs x) as [|o os] eqn:E; [exact IH|].
      set (ps := pos_at cfg (c_data c) (c_index c) sigs) in *. set (v := fill_column cfg c) in *.
      assert (O : oprice o = quote v (otick o)).
      { unfold new_order, order_at in E. unfold v, fill_column. destruct (sc_on_close cfg); [destruct x|destruct (last sigs None)]; inversion E; reflexivity. }
      clear E.
      assert (EN : forall l, quoted cfg v (enter cfg l o)).
      { intros l. unfold quoted. rewrite enter_in, enter_size, enter_out. split; [exact O|]. split; [exists l; reflexivity|exact Logic.I]. }
      assert (LV : forall p, quoted cfg v p -> quoted cfg v (leave p o)).
      { intros p (A & B & _). unfold quoted. rewrite leave_in, leave_size, leave_out. auto. }
      destruct (place_cases cfg ps o) as [(-> & _)|(old & p & EP & CL & H)].
      + apply Forall_app; split; [exact IH|]. constructor; [apply EN|constructor].
      + rewrite EP in IH, H |- *. clear EP. apply Forall_app in IH. destruct IH as [P1 P2]. inversion P2 as [|? ? Pp _]; subst.
        assert (PL : Forall (quoted cfg v) (old ++ [leave p o])).
        { apply Forall_app; split; [exact P1|]. constructor; [apply LV; exact Pp|constructor]. }
        destruct H as [(_ & -> & _)|(_ & _ & [(_ & -> & _)|(_ & -> & _)])].
        * apply Forall_app; split; assumption.
        * rewrite app_assoc. apply Forall_app; split; [exact PL|]. constructor; [apply EN|constructor].
        * exact PL.
  Qed.
  (** A trade's prices are quotes of its ticks. *)
  Lemma trade_quoted cfg c sigs s t : after cfg c sigs s -> In t (s_trades s) ->
    exists e et size ps, t_entry_price t = Some e /\ t_entry_tick t = Some et /\ t_fill t = Some size /\
      e = quote (fill_column cfg c) et /\ size = size_for cfg ps e /\ (c_index c <= et < c_index c + List.length sigs)%nat /\
      (t_closed t = true -> exists x xt, t_exit_price t = Some x /\ t_exit_tick t = Some xt /\ x = quote (fill_column cfg c) xt /\
        (et < xt < c_index c + List.length sigs)%nat /\ t_pnl t = profit_at t e size x).
  Proof.
    intros A I. apply In_nth_error in I. destruct I as [i I].
    destruct (nth_trades _ _ _ _ _ _ A I) as (p & Hp & E).
    destruct (C28_trades _ _ _ _ A _ _ I) as (et & ep & size & E1 & E2 & E3 & B & X & _).
    pose proof (pos_quoted cfg c sigs) as Q. rewrite Forall_forall in Q. destruct (Q p (nth_error_In _ _ Hp)) as (Q1 & [ps Q2] & Q3).
    subst t. cbn [as_trade t_entry_price t_entry_tick t_fill t_closed t_exit_price t_exit_tick] in *.
    injection E1 as <-. injection E2 as <-. injection E3 as <-.
    exists (snd (pos_in p)), (fst (pos_in p)), (pos_size p), ps. do 5 (split; [auto; fail|]). split; [exact B|].
    intros CL. destruct (X CL) as (xt & xp & X1 & X2 & X3 & X4). unfold pos_closed in CL. destruct (pos_out p) as [[t x]|]; [|discriminate].
    cbn [option_map fst snd] in X1, X2. injection X1 as <-. injection X2 as <-. exists x, t. auto.
  Qed.
End Quoted.

(** ** C116 *)
(** The price moved in the trade's favour, or against it. *)
Definition in_favour (t : trade f64) : bool :=
  match t_entry_price t, t_exit_price t with
  | Some e, Some x => match t_dir t with Long => Bltb e x | Short => Bltb x e end
  | _, _ => false
  end.
Definition against (t : trade f64) : bool :=
  match t_entry_price t, t_exit_price t with
  | Some e, Some x => match t_dir t with Long => Bltb x e | Short => Bltb e x end
  | _, _ => false
  end.
Section C116.
  Variable log10 : f64 -> f64.
  Local Instance N116 : Num f64 := IEEE log10.
  Notation zero := (f64_ofZ 0).

  Lemma ltb_real (x y : f64) : is_finite x = true -> is_finite y = true -> (Bltb x y = true <-> B2R x < B2R y).
  Proof. intros A B. rewrite Bltb_correct by assumption. destruct (Rlt_bool_spec (B2R x) (B2R y)); split; intros; try lra; try discriminate; reflexivity. Qed.
  Lemma bool_iff (a b : bool) : (a = true <-> b = true) -> a = b.
  Proof. destruct a, b; intros [H1 H2]; try reflexivity; [symmetry; apply H1; reflexivity|apply H2; reflexivity]. Qed.

  (** The sign of the profit of a closed trade is that of the price move. *)
  Theorem C116_trade (cfg : sconfig f64) c sigs s t e x size : after cfg c sigs s -> In t (s_trades s) -> t_closed t = true ->
    t_entry_price t = Some e -> t_exit_price t = Some x -> t_fill t = Some size -> is_finite e = true -> is_finite x = true ->
    sizeable size (B2R x - B2R e) ->
    (fZ 0 <? t_pnl t)%num = in_favour t /\ (t_pnl t <? fZ 0)%num = against t.
  Proof.
    intros A I CL E1 E2 E3 Fe Fx SZ. destruct (trade_quoted _ _ _ _ _ A I) as (e' & et & size' & ps & Q1 & _ & Q3 & _ & _ & _ & X).
    destruct (X CL) as (x' & xt & X1 & _ & _ & _ & PN). rewrite E1 in Q1. rewrite E2 in X1. rewrite E3 in Q3.
    injection Q1 as <-. injection X1 as <-. injection Q3 as <-. rewrite PN. unfold in_favour, against. rewrite E1, E2. unfold profit_at.
    destruct (product_sign x e size Fx Fe SZ) as [S1 S2]. cbv zeta in S1, S2.
    change ((fZ 0 : f64)) with zero. change (@fsub f64 N116) with (Bminus (prec := 53) (emax := 1024) mode_NE). change (@fmul f64 N116) with (Bmult (prec := 53) (emax := 1024) mode_NE).
    change (@fltb f64 N116) with (@Bltb 53 1024).
    destruct (t_dir t); cbn [sign].
    - change (fZ 1 : f64) with (f64_ofZ 1). rewrite f64_mul_1. split; apply bool_iff; rewrite ?S1, ?S2; symmetry; apply ltb_real; assumption.
    - change (fZ (-1) : f64) with (f64_ofZ (-1)). rewrite f64_mul_m1, opp_lt_l, opp_lt_r. split; apply bool_iff; rewrite ?S1, ?S2; symmetry; apply ltb_real; assumption.
  Qed.

  (** Every quote of the column the orders are filled at is a finite number. *)
  Definition finite_fills (cfg : sconfig f64) (c : ctx f64) : Prop := forall x, In (Some x) (fill_column cfg c) -> is_finite x = true.
  Lemma quote_finite cfg c i : finite_fills cfg c -> is_finite (quote (fill_column cfg c) i) = true.
  Proof.
    intros H. unfold quote. destruct (nth_error (fill_column cfg c) i) as [[x|]|] eqn:E; try reflexivity. apply H. eapply nth_error_In; exact E.
  Qed.
  Lemma unit_outcome (cfg : sconfig f64) c sigs s : sc_with_equity cfg = false -> finite_fills cfg c -> after cfg c sigs s ->
    forall t, In t (s_trades s) -> t_closed t = true -> (fZ 0 <? t_pnl t)%num = in_favour t /\ (t_pnl t <? fZ 0)%num = against t.
  Proof.
    intros CE FF A t I CL. destruct (trade_quoted _ _ _ _ _ A I) as (e & et & size & ps & Q1 & _ & Q3 & Qe & Qs & _ & X).
    destruct (X CL) as (x & xt & X1 & _ & Qx & _ & PN).
    apply (C116_trade cfg c sigs s t e x size); auto; try (subst e x; apply quote_finite; assumption).
    left. rewrite Qs. unfold size_for. rewrite CE. reflexivity.
  Qed.
  Lemma filter_closed_pnls (p : f64 -> bool) (q : trade f64 -> bool) ts : (forall t, In t ts -> t_closed t = true -> p (t_pnl t) = q t) ->
    filter p (closed_pnls ts) = map t_pnl (filter (fun t => t_closed t && q t) ts).
  Proof.
    unfold closed_pnls. induction ts as [|t ts IH]; intros H; [reflexivity|]. cbn [filter map].
    destruct (t_closed t) eqn:C; cbn [andb map filter]; [|apply IH; intros; apply H; [right|]; assumption].
    rewrite (H t (or_introl eq_refl) C). destruct (q t); cbn [map]; rewrite IH by (intros; apply H; [right|]; assumption); reflexivity.
  Qed.
  (** With one share per trade the report counts as winning exactly the trades whose price moved
      in their favour, and as losing those it moved against. *)
  Theorem C116_counts (cfg : sconfig f64) c sigs s : sc_with_equity cfg = false -> finite_fills cfg c -> after cfg c sigs s ->
    let won := filter (fun t => t_closed t && in_favour t) (s_trades s) in
    let lost := filter (fun t => t_closed t && against t) (s_trades s) in
    let m := s_metrics s in
    sm_winning m = List.length won /\ sm_losing m = List.length lost /\
    sm_gross_profit m = total (map t_pnl won) /\ sm_gross_loss m = total (map fabs (map t_pnl lost)).
  Proof.
    intros CE FF A. cbv zeta. pose proof (unit_outcome cfg c sigs s CE FF A) as U.
    pose proof (@C30_totals f64 N116 (IEEEOrd log10) cfg c sigs s A) as T. cbv zeta in T. destruct T as (_ & _ & W & Lo & GP & GL & _).
    rewrite (filter_closed_pnls (fun x => (fZ 0 <? x)%num) in_favour) in W, GP by (intros t I C; apply (U t I C)).
    rewrite (filter_closed_pnls (fun x => (x <? fZ 0)%num) against) in Lo, GL by (intros t I C; apply (U t I C)).
    rewrite map_length in W, Lo. auto.
  Qed.
  (** While the fill prices only rise, the winning trades are the longs and the losing trades the shorts. *)
  Theorem C116_rising (cfg : sconfig f64) c sigs s : sc_with_equity cfg = false -> finite_fills cfg c -> after cfg c sigs s ->
    (forall i j, (c_index c <= i < j)%nat -> (j < c_index c + List.length sigs)%nat ->
       (quote (fill_column cfg c) i <? quote (fill_column cfg c) j)%num = true) ->
    sm_winning (s_metrics s) = List.length (filter (fun t => t_closed t && dir_eqb (t_dir t) Long) (s_trades s)) /\
    sm_losing (s_metrics s) = List.length (filter (fun t => t_closed t && dir_eqb (t_dir t) Short) (s_trades s)).
  Proof.
    intros CE FF A R. destruct (C116_counts cfg c sigs s CE FF A) as (-> & -> & _).
    assert (G : forall t, In t (s_trades s) -> t_closed t = true -> in_favour t = dir_eqb (t_dir t) Long /\ against t = dir_eqb (t_dir t) Short).
    { intros t I C. destruct (trade_quoted _ _ _ _ _ A I) as (e & et & size & ps & Q1 & _ & _ & Qe & _ & B & X).
      destruct (X C) as (x & xt & X1 & _ & Qx & BX & _). unfold in_favour, against. rewrite Q1, X1.
      assert (LT : Bltb e x = true) by (subst e x; apply R; lia).
      assert (GE : Bltb x e = false).
      { apply (@lt_asym f64 N116 (IEEEOrd log10)). exact LT. }
      destruct (t_dir t); cbn [dir_eqb]; auto. }
    split; f_equal; apply filter_ext_in; intros t I; destruct (t_closed t) eqn:C; cbn [andb]; try reflexivity; apply (G t I C).
  Qed.

  (** ** Any data, any sizing *)
  Lemma size_unsigned (cfg : sconfig f64) ps price : unsigned (size_for cfg ps price).
  Proof.
    unfold size_for. destruct (sc_with_equity cfg); [|right; reflexivity].
    cbv zeta. set (eq := (sc_capital cfg + total (profits ps) + fZ 0)%num). clearbody eq.
    destruct (eq <=? fZ 0)%num eqn:E1; [right; reflexivity|]. destruct (price <=? fZ 0)%num eqn:E2; [right; reflexivity|]. cbn [orb].
    change (Bleb eq zero = false) in E1. change (Bleb price zero = false) in E2. change (unsigned (Bdiv mode_NE eq price)).
    assert (P : forall z : f64, Bleb z zero = false -> pz z).
    { intros z. destruct z as [s|[]| |[] m e H]; cbn; intros Q; try discriminate; try (destruct s; discriminate); unfold pz; cbn; auto. }
    apply (div_pz log10); apply P; assumption.
  Qed.
  Lemma sub_wn (x e : f64) : not_above e x -> Bltb (Bminus mode_NE x e) zero = false /\ Bltb zero (Bminus mode_NE e x) = false.
  Proof.
    intros A. apply not_above_cases in A. destruct A as [A|[A|[->|[->|(Fe & Fx & L)]]]].
    - destruct e; try discriminate; destruct x as [[]|[]| |[] m z H]; split; reflexivity.
    - destruct x; try discriminate; destruct e as [[]|[]| |[] m z H]; split; reflexivity.
    - destruct x as [[]|[]| |[] m z H]; split; reflexivity.
    - destruct e as [[]|[]| |[] m z H]; split; reflexivity.
    - destruct (sign_rounded _ _ (minus_rounded x e Fx Fe)) as [_ G2]. destruct (sign_rounded _ _ (minus_rounded e x Fe Fx)) as [G1 _].
      destruct (sub_sign x e Fx Fe) as [_ S2]. destruct (sub_sign e x Fe Fx) as [S1 _].
      split; [destruct (Bltb (Bminus mode_NE x e) zero)|destruct (Bltb zero (Bminus mode_NE e x))]; try reflexivity; exfalso.
      + apply proj1 in G2. specialize (G2 eq_refl). apply S2 in G2. lra.
      + apply proj1 in G1. specialize (G1 eq_refl). apply S1 in G1. lra.
  Qed.
  Lemma mult_keeps (k d : f64) : unsigned k ->
    (Bltb d zero = false -> Bltb (Bmult mode_NE d k) zero = false) /\ (Bltb zero d = false -> Bltb zero (Bmult mode_NE d k) = false).
  Proof.
    intros K. destruct (finite_cases k) as [Fk|[->|[->| ->]]].
    - assert (Z : exists b, Bmult mode_NE zero k = B754_zero b) by (destruct k; try discriminate Fk; eexists; reflexivity). destruct Z as [b Z].
      assert (Q : forall z : f64, Bltb z (B754_zero b) = Bltb z zero /\ Bltb (B754_zero b) z = Bltb zero z) by (intros z; destruct z as [[]|[]| |[] m z H]; split; reflexivity).
      split; intros H.
      + pose proof (mult_mono_r k zero d K H) as M. rewrite Z in M. unfold not_above in M. rewrite (proj1 (Q _)) in M. exact M.
      + pose proof (mult_mono_r k d zero K H) as M. rewrite Z in M. unfold not_above in M. rewrite (proj2 (Q _)) in M. exact M.
    - destruct d as [[]|[]| |[] m z H]; split; cbn; intros; try discriminate; reflexivity.
    - destruct K; discriminate.
    - destruct d as [[]|[]| |[] m z H]; split; reflexivity.
  Qed.

  (** Whatever the data (NaN and infinities included) and the sizing: a trade whose price did not
      move against it never shows a loss, one whose price did not move in its favour never shows
      a profit. *)
  Theorem C116_not_turned (cfg : sconfig f64) c sigs s t : after cfg c sigs s -> In t (s_trades s) -> t_closed t = true ->
    (against t = false -> (t_pnl t <? fZ 0)%num = false) /\ (in_favour t = false -> (fZ 0 <? t_pnl t)%num = false).
  Proof.
    intros A I CL. destruct (trade_quoted _ _ _ _ _ A I) as (e & et & size & ps & Q1 & _ & Q3 & _ & Qs & _ & X).
    destruct (X CL) as (x & xt & X1 & _ & _ & _ & PN). rewrite PN. unfold in_favour, against. rewrite Q1, X1. unfold profit_at.
    assert (K : unsigned size) by (subst size; apply size_unsigned).
    change ((fZ 0 : f64)) with zero. change (@fsub f64 N116) with (Bminus (prec := 53) (emax := 1024) mode_NE). change (@fmul f64 N116) with (Bmult (prec := 53) (emax := 1024) mode_NE).
    change (@fltb f64 N116) with (@Bltb 53 1024). destruct (mult_keeps size (Bminus mode_NE x e) K) as [M1 M2].
    destruct (t_dir t); cbn [sign].
    - change (fZ 1 : f64) with (f64_ofZ 1). rewrite f64_mul_1. split; intros H; [apply M1, (sub_wn x e H)|apply M2, (sub_wn e x H)].
    - change (fZ (-1) : f64) with (f64_ofZ (-1)). rewrite f64_mul_m1, opp_lt_l, opp_lt_r. split; intros H; [apply M2, (sub_wn e x H)|apply M1, (sub_wn x e H)].
  Qed.
  Lemma filter_imp {A} (p q : A -> bool) l : (forall x, In x l -> p x = true -> q x = true) -> (List.length (filter p l) <= List.length (filter q l))%nat.
  Proof.
    induction l as [|x l IH]; intros H; [cbn; lia|]. cbn [filter]. specialize (IH (fun y I => H y (or_intror I))).
    pose proof (H x (or_introl eq_refl)) as Hx. destruct (p x), (q x); cbn [List.length]; try lia.
  Qed.
  (** So the report never counts more winners than trades the price moved in favour of. *)
  Theorem C116_at_most (cfg : sconfig f64) c sigs s : after cfg c sigs s ->
    (sm_winning (s_metrics s) <= List.length (filter (fun t => t_closed t && in_favour t) (s_trades s)))%nat /\
    (sm_losing (s_metrics s) <= List.length (filter (fun t => t_closed t && against t) (s_trades s)))%nat.
  Proof.
    intros A. pose proof (@C30_totals f64 N116 (IEEEOrd log10) cfg c sigs s A) as T. cbv zeta in T. destruct T as (_ & _ & W & Lo & _).
    rewrite W, Lo. rewrite (filter_closed_pnls (fun x => (fZ 0 <? x)%num) (fun t => (fZ 0 <? t_pnl t)%num)) by reflexivity.
    rewrite (filter_closed_pnls (fun x => (x <? fZ 0)%num) (fun t => (t_pnl t <? fZ 0)%num)) by reflexivity. rewrite !map_length.
    split; apply filter_imp; intros t I H; apply andb_prop in H; destruct H as [C H]; rewrite C; cbn [andb];
      destruct (C116_not_turned cfg c sigs s t A I C) as [N1 N2].
    - destruct (in_favour t); [reflexivity|]. specialize (N2 eq_refl). rewrite N2 in H. discriminate.
    - destruct (against t); [reflexivity|]. specialize (N1 eq_refl). rewrite N1 in H. discriminate.
  Qed.
  (** A better price never gives a worse result: the value of a trade does not decrease (long) or
      increase (short) with the price. *)
  Theorem C116_monotone (cfg : sconfig f64) c sigs s t x y : after cfg c sigs s -> In t (s_trades s) ->
    (y <? x)%num = false ->
    exists p q, trade_cur_pnl t x = Ok p /\ trade_cur_pnl t y = Ok q /\
      match t_dir t with Long => (q <? p)%num = false | Short => (p <? q)%num = false end.
  Proof.
    intros A I L. destruct (trade_quoted _ _ _ _ _ A I) as (e & et & size & ps & Q1 & _ & Q3 & _ & Qs & _ & _).
    assert (K : unsigned size) by (subst size; apply size_unsigned).
    unfold trade_cur_pnl. rewrite Q1, Q3. cbn [unwrap rbind]. eexists; eexists. split; [reflexivity|]. split; [reflexivity|]. unfold trade_pnl.
    change (@fsub f64 N116) with (Bminus (prec := 53) (emax := 1024) mode_NE). change (@fmul f64 N116) with (Bmult (prec := 53) (emax := 1024) mode_NE).
    change (@fltb f64 N116) with (@Bltb 53 1024) in *.
    assert (M : not_above (Bmult mode_NE (Bminus mode_NE x e) size) (Bmult mode_NE (Bminus mode_NE y e) size)).
    { apply mult_mono_r; [exact K|]. rewrite !minus_plus. apply plus_mono; [exact L|apply not_above_refl]. }
    destruct (t_dir t); cbn [dir_eqb].
    - change (fZ 1 : f64) with (f64_ofZ 1). rewrite !f64_mul_1. exact M.
    - change (fZ (-1) : f64) with (f64_ofZ (-1)). rewrite !f64_mul_m1. unfold not_above in M.
      revert M. generalize (Bmult mode_NE (Bminus mode_NE x e) size) (Bmult mode_NE (Bminus mode_NE y e) size). intros p q.
      rewrite !to_xr_lt. destruct (finite_cases p) as [Hp|[->|[->| ->]]], (finite_cases q) as [Hq|[->|[->| ->]]];
      try (rewrite (to_xr_finite p) by assumption); try (rewrite (to_xr_finite q) by assumption);
      try (rewrite (to_xr_finite (Bopp p)) by (rewrite opp_finite; assumption)); try (rewrite (to_xr_finite (Bopp q)) by (rewrite opp_finite; assumption)); cbn; auto.
      rewrite !B2R_Bopp. destruct (Rltb_spec (B2R q) (B2R p)), (Rltb_spec (- B2R p) (- B2R q)); auto; lra.
  Qed.
End C116.

(** ** Concrete cases *)
Definition all_finite (l : list (option f64)) : bool := forallb (fun o => match o with Some x => is_finite x | None => true end) l.
Lemma all_finite_fills (cfg : sconfig f64) c : all_finite (fill_column cfg c) = true -> finite_fills cfg c.
Proof. intros H x I. unfold all_finite in H. rewrite forallb_forall in H. apply (H (Some x) I). Qed.
Definition outcomes (r : res (strategy f64 * list unit)) : list (direction * bool * bool) * nat * nat :=
  match r with
  | Ok (s, _) => (map (fun t => (t_dir t, in_favour t, against t)) (s_trades s), sm_winning (s_metrics s), sm_losing (s_metrics s))
  | Panic => ([], 0, 0)%nat
  end.
(** Long from 11 to 12, short from 9 to 10: one winner, one loser. *)
Example C116_ex : finite_fills (cfg_of false false false) ctx6 /\
  outcomes (run_st strategy_step ctx6 (strategy_new (cfg_of false false false)) sig6) =
  ([(Long, true, false); (Short, false, true)], 1, 1)%nat.
Proof. split; [apply all_finite_fills; vm_compute; reflexivity|vm_compute; reflexivity]. Qed.
(** Five rising bars, reversed every bar: both longs win, both shorts lose. *)
Definition bars116 : list (bar f64) := map qbar
  [(10, 12, 9, 11, 100); (11, 14, 10, 13, 120); (13, 15, 12, 14, 90); (14, 18, 13, 17, 200); (17, 19, 16, 18, 150); (18, 20, 17, 19, 100)]%Z.
Definition ctx116 : ctx f64 :=
  mkCtx (mkProvider (map b_open bars116) (map b_high bars116) (map b_low bars116) (map b_close bars116) (map b_volume bars116) (repeat None 6) 0 5) 0 5 6 0 false.
Definition sig116 : list (option direction) := [Some Long; Some Short; Some Long; Some Short; Some Long; None].
Example C116_rising_ex : finite_fills (cfg_of false true false) ctx116 /\
  (forall i j, (0 <= i < j)%nat -> (j < 0 + 6)%nat ->
     (quote (fill_column (cfg_of false true false) ctx116) i <? quote (fill_column (cfg_of false true false) ctx116) j)%num = true) /\
  outcomes (run_st strategy_step ctx116 (strategy_new (cfg_of false true false)) sig116) =
  ([(Long, true, false); (Short, false, true); (Long, true, false); (Short, false, true); (Long, false, false)], 2, 2)%nat.
Proof.
  split; [apply all_finite_fills; vm_compute; reflexivity|]. split; [|vm_compute; reflexivity].
  intros i j A B. assert (J : (i < 6)%nat) by lia. do 6 (destruct j as [|j]; [do 6 (destruct i as [|i]; [try lia; vm_compute; reflexivity|]); lia|]). lia.
Qed.
(** The size condition matters: with the smallest positive capital and trades on all equity the
    size is rounded to zero, so a trade from 10 to 13 is neither won nor lost. *)
Definition smallest : f64 := @B754_finite 53 1024 false 1 (-1074) eq_refl.
Example C116_tiny :
  outcomes (run_st strategy_step ctx116 (strategy_new (mkSConfig false true smallest true)) [Some Long; Some Short; None]) =
  ([(Long, true, false); (Short, false, false)], 0, 0)%nat.
Proof. vm_compute. reflexivity. Qed.
(** ... while with the usual capital the condition holds and the trade is won. *)
Example C116_sized :
  outcomes (run_st strategy_step ctx116 (strategy_new (mkSConfig false true (q 1000) true)) [Some Long; Some Short; None]) =
  ([(Long, true, false); (Short, false, false)], 1, 0)%nat /\
  sizeable (fdiv (q 1000) (q 11)) (B2R (q 13) - B2R (q 11)).
Proof.
  split; [vm_compute; reflexivity|]. right.
  assert (W : within (q 90) (q 91) (fdiv (q 1000) (q 11))).
  { destruct (f64_ofZ_correct 1000 ltac:(cbn; lia)) as [A1 A2]. destruct (f64_ofZ_correct 11 ltac:(cbn; lia)) as [B1 B2].
    destruct (f64_ofZ_correct 90 ltac:(cbn; lia)) as [C1 C2]. destruct (f64_ofZ_correct 91 ltac:(cbn; lia)) as [D1 D2].
    apply (div_within (fun x => x)); unfold q; auto; rewrite ?A1, ?B1, ?C1, ?D1; lra. }
  destruct W as [W1 W2]. split; [exact W1|].
  destruct (f64_ofZ_correct 13 ltac:(cbn; lia)) as [A1 _]. destruct (f64_ofZ_correct 11 ltac:(cbn; lia)) as [B1 _].
  destruct (f64_ofZ_correct 90 ltac:(cbn; lia)) as [C1 _]. unfold q in *. rewrite C1 in W2. split; [lra|]. right.
  rewrite A1, B1. rewrite Rabs_pos_eq by lra. assert (S0 : bpow radix2 (-1000) <= bpow radix2 0) by (apply bpow_le; lia).
  change (bpow radix2 0) with 1 in S0. lra.
Qed.
Print Assumptions C116_trade.
Print Assumptions C116_counts.
Print Assumptions C116_rising.
Print Assumptions C116_not_turned.
Print Assumptions C116_at_most.
Print Assumptions C116_monotone.
