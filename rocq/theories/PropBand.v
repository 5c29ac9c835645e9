(** * PropBand: what the equity band of a bar is, whoever tracks it and in
    every mode: further theorems of C37, C90 and C91. *)
From Verif Require Export PropMetrics2.

(** ** The last open trade *)
Section Band.
  Context {F : Type} {NF : Num F} {M : Type}.
  Local Open Scope num_scope.
  (** The trade a strategy is in, if it is in one. *)
  Definition in_trade (s : strategy F) : option (trade F) :=
    match newest (s_trades s) with Some t => if t_closed t then None else Some t | None => None end.
  (** The band [(lo, hi)] reported at bar [i] of the context is the net equity
      plus the profit of [t] at the worst and at the best price of bar [j]. *)
  Definition marked_at (c : ctx F) (j : nat) (t : trade F) (e : equity F) : Prop :=
    exists lo hi ep f,
      nth_error (p_low (c_data c)) (c_index c + j) = Some (Some lo) /\
      nth_error (p_high (c_data c)) (c_index c + j) = Some (Some hi) /\
      t_entry_price t = Some ep /\ t_fill t = Some f /\
      e_bar_min e = e_net e + profit_at t ep f (worst t lo hi) /\
      e_bar_max e = e_net e + profit_at t ep f (best_price t lo hi).
  (** Bar [j] of the run is the last one up to bar [i] that ended in a trade,
      and that trade is [t]. *)
  Definition last_in_trade (os : list (strategy F * M)) (i j : nat) (t : trade F) : Prop :=
    (j <= i)%nat /\ (exists o, nth_error os j = Some o /\ in_trade (fst o) = Some t) /\
    forall k o, (j < k <= i)%nat -> nth_error os k = Some o -> in_trade (fst o) = None.
  Definition never_in_trade (os : list (strategy F * M)) (i : nat) : Prop :=
    forall k o, (k <= i)%nat -> nth_error os k = Some o -> in_trade (fst o) = None.

  (** The band of every bar, for a metrics component that tracks the equity of
      the strategy it observes. *)
  Definition band_of (eq : M -> equity F) (c : ctx F) (os : list (strategy F * M)) : Prop :=
    forall i s m, nth_error os i = Some (s, m) -> let e := eq m in
      (never_in_trade os i /\ e_bar_min e = e_net e + fZ 0 /\ e_bar_max e = e_net e + fZ 0) \/
      (exists j t, last_in_trade os i j t /\ marked_at c j t e).

  Lemma nth_snoc_lt {X : Type} (l : list X) y i : (i < length l)%nat -> nth_error (l ++ [y]) i = nth_error l i.
  Proof. intros H. apply nth_error_app1. exact H. Qed.
  Lemma nth_snoc_last {X : Type} (l : list X) y : nth_error (l ++ [y]) (length l) = Some y.
  Proof. rewrite nth_error_app2, Nat.sub_diag by lia. reflexivity. Qed.

  Lemma band (eq : M -> equity F) (mstep : ctx F -> M -> strategy F -> res (M * unit)) cfg m0 c sigs os :
    (forall c m s m', mstep c m s = Ok (m', tt) -> equity_step c (eq m) s = Ok (eq m', tt)) ->
    eq m0 = equity_new (sc_capital cfg) ->
    observed mstep cfg m0 c sigs os -> band_of eq c os.
  Proof.
    intros TR E0 O.
    (* the kept excursion, in addition to the bands *)
    destruct (metered_ind _ _ _ _ _ _ (fun l s m => band_of eq c l /\
      match rev l with
      | [] => e_bop_min (eq m) = fZ 0 /\ e_bop_max (eq m) = fZ 0
      | _ =>
          (never_in_trade l (length l - 1) /\ e_bop_min (eq m) = fZ 0 /\ e_bop_max (eq m) = fZ 0) \/
          (exists j t lo hi ep f, last_in_trade l (length l - 1) j t /\
             nth_error (p_low (c_data c)) (c_index c + j) = Some (Some lo) /\
             nth_error (p_high (c_data c)) (c_index c + j) = Some (Some hi) /\
             t_entry_price t = Some ep /\ t_fill t = Some f /\
             e_bop_min (eq m) = profit_at t ep f (worst t lo hi) /\
             e_bop_max (eq m) = profit_at t ep f (best_price t lo hi))
      end) O) as (s1 & m1 & [P _] & _); [| |exact P].
    - split; [intros i s m H; destruct i; discriminate|]. cbn [rev]. rewrite E0. split; reflexivity.
    - intros xs x a a' d d' l R ST L (B & K) H. apply TR in H.
      destruct (equity_step_shape _ _ _ _ H) as (_ & _ & _ & EN & _ & _ & B1 & B2 & NB).
      rewrite <- EN in B1, B2. clear EN.
      (* what is kept after this bar *)
      assert (Q : (never_in_trade (l ++ [(a', d')]) (length l) /\ e_bop_min (eq d') = fZ 0 /\ e_bop_max (eq d') = fZ 0) \/
          (exists j t lo hi ep f, last_in_trade (l ++ [(a', d')]) (length l) j t /\
             nth_error (p_low (c_data c)) (c_index c + j) = Some (Some lo) /\
             nth_error (p_high (c_data c)) (c_index c + j) = Some (Some hi) /\
             t_entry_price t = Some ep /\ t_fill t = Some f /\
             e_bop_min (eq d') = profit_at t ep f (worst t lo hi) /\
             e_bop_max (eq d') = profit_at t ep f (best_price t lo hi))).
      { destruct (in_trade a') as [t|] eqn:IT.
        - right. unfold in_trade in IT. destruct (newest (s_trades a')) as [t'|] eqn:NT; [|discriminate].
          destruct (t_closed t') eqn:TC; [discriminate|]. injection IT as ->.
          destruct NB as (lo & hi & ep & f & N1 & N2 & N3 & N4 & N5 & N6). cbn in N1, N2.
          exists (length l), t, lo, hi, ep, f. rewrite L. split; [|auto 10].
          rewrite <- L. split; [lia|]. split.
          + exists (a', d'). split; [apply nth_snoc_last|]. unfold in_trade. cbn [fst]. rewrite NT, TC. reflexivity.
          + intros k o K1. lia.
        - assert (NB' : e_bop_min (eq d') = e_bop_min (eq d) /\ e_bop_max (eq d') = e_bop_max (eq d)).
          { unfold in_trade in IT. destruct (newest (s_trades a')) as [t'|]; [|exact NB].
            destruct (t_closed t'); [exact NB|discriminate]. }
          destruct NB' as [-> ->]. clear NB.
          assert (HI : forall k o, (length l - 1 < k <= length l)%nat -> nth_error (l ++ [(a', d')]) k = Some o -> l <> [] -> in_trade (fst o) = None).
          { intros k o K1 K2 NE. assert (k = length l) as -> by (destruct l; [congruence|cbn [length] in *; lia]).
            rewrite nth_snoc_last in K2. injection K2 as <-. exact IT. }
          destruct l as [|o0 l0].
          + left. cbn in K. destruct K as [K1 K2]. split; [|split; assumption].
            intros k o K3 K4. destruct k; [|cbn in K3; lia]. cbn in K4. injection K4 as <-. exact IT.
          + set (l1 := o0 :: l0) in *. assert (NE : l1 <> []) by discriminate.
            assert (RV : rev l1 <> []). { intros E. apply (f_equal (@rev _)) in E. rewrite rev_involutive in E. exact (NE E). }
            destruct (rev l1) as [|r0 r1]; [congruence|].
            assert (LP : (0 < length l1)%nat) by (cbn; lia).
            destruct K as [(K1 & K2 & K3)|(j & t & lo & hi & ep & f & (J1 & (o & J2 & J3) & J4) & K)].
            * left. split; [|auto]. intros k o K4 K5. destruct (Nat.eq_dec k (length l1)) as [->|D].
              { eapply HI; [|exact K5|exact NE]. lia. }
              apply (K1 k o); [lia|]. rewrite nth_snoc_lt in K5 by lia. exact K5.
            * right. exists j, t, lo, hi, ep, f. split; [|exact K]. split; [lia|]. split.
              { exists o. split; [|exact J3]. rewrite nth_snoc_lt by lia. exact J2. }
              intros k o' K4 K5. destruct (Nat.eq_dec k (length l1)) as [->|D].
              { eapply HI; [|exact K5|exact NE]. lia. }
              apply (J4 k o'); [lia|]. rewrite nth_snoc_lt in K5 by lia. exact K5. }
      split.
      + intros i s m Hi. cbn zeta.
        assert (LI : (i < length (l ++ [(a', d')]))%nat) by (apply nth_error_Some; congruence).
        rewrite app_length in LI. cbn [length] in LI.
        destruct (Nat.eq_dec i (length l)) as [->|D].
        * rewrite nth_snoc_last in Hi. injection Hi as <- <-. rewrite B1, B2.
          destruct Q as [(Q1 & Q2 & Q3)|(j & t & lo & hi & ep & f & Q1 & Q2 & Q3 & Q4 & Q5 & Q6 & Q7)].
          -- left. rewrite Q2, Q3. auto.
          -- right. exists j, t. split; [exact Q1|]. exists lo, hi, ep, f. rewrite B1, B2, Q6, Q7. auto 10.
        * rewrite nth_snoc_lt in Hi by lia.
          destruct (B _ _ _ Hi) as [(U1 & U2)|(j & t & (U1 & (o & U2 & U3) & U4) & U5)].
          -- left. split; [|exact U2]. intros k o K1 K2. rewrite nth_snoc_lt in K2 by lia. eapply U1; eassumption.
          -- right. exists j, t. split; [|exact U5]. split; [exact U1|]. split.
             ++ exists o. split; [rewrite nth_snoc_lt by lia; exact U2|exact U3].
             ++ intros k o' K1 K2. rewrite nth_snoc_lt in K2 by lia. eapply U4; eassumption.
      + rewrite rev_app_distr. cbn [rev app]. rewrite app_length. cbn [length].
        replace (length l + 1 - 1)%nat with (length l) by lia. exact Q.
  Qed.
End Band.

(** ** C91 *)
Section C91.
  Context {F : Type} {NF : Num F}.
  Local Open Scope num_scope.
  (** In every mode and at every bar: the band is the net equity plus the
      excursion of the last bar that ended in a trade, and the net equity alone
      before any such bar. *)
  Theorem C91_band (cfg : sconfig F) c sigs os :
    observed equity_step cfg (equity_new (sc_capital cfg)) c sigs os -> band_of (fun e => e) c os.
  Proof. apply band; [intros c0 m s m' H; exact H|reflexivity]. Qed.
  (** The same inside the two reports. *)
  Theorem C91_tradingview (cfg : sconfig F) rfr c sigs os :
    observed tv_step cfg (tv_new (strategy_new cfg) rfr) c sigs os -> band_of (@tv_eqm F) c os.
  Proof. apply band; [intros c0 m s m' H; apply (tv_step_shape _ _ _ _ H)|reflexivity]. Qed.
  Theorem C91_cobra (cfg : sconfig F) est start c sigs os :
    observed cobra_step cfg (cobra_new (strategy_new cfg) est start) c sigs os -> band_of (@cb_eqm F) c os.
  Proof. apply band; [intros c0 m s m' H; apply (cobra_step_shape _ _ _ _ H)|reflexivity]. Qed.

  (** ** C37: the band of a bar that ends in a trade is marked at that bar. *)
  Theorem C37_open_band (cfg : sconfig F) c sigs os i s e t :
    observed equity_step cfg (equity_new (sc_capital cfg)) c sigs os ->
    nth_error os i = Some (s, e) -> in_trade s = Some t -> marked_at c i t e.
  Proof.
    intros O N IT. destruct (C91_band _ _ _ _ O _ _ _ N) as [(U & _)|(j & t' & (U1 & (o & U2 & U3) & U4) & U5)].
    - pose proof (U i _ (le_n _) N) as X. cbn [fst] in X. congruence.
    - destruct (Nat.eq_dec j i) as [->|D].
      + rewrite U2 in N. injection N as ->. cbn [fst] in U3. rewrite IT in U3. injection U3 as <-. exact U5.
      + pose proof (U4 i _ ltac:(lia) N) as X. cbn [fst] in X. congruence.
  Qed.

  (** ** C90: what an adverse excursion is. *)
  Theorem C90_adverse (cfg : sconfig F) est start c sigs os i s b t :
    observed cobra_step cfg (cobra_new (strategy_new cfg) est start) c sigs os ->
    nth_error os i = Some (s, b) -> in_trade s = Some t ->
    exists lo hi ep f net,
      nth_error (p_low (c_data c)) (c_index c + i) = Some (Some lo) /\
      nth_error (p_high (c_data c)) (c_index c + i) = Some (Some hi) /\
      t_entry_price t = Some ep /\ t_fill t = Some f /\ net = e_net (cb_eqm b) /\
      adverse (s, b) = net - (net + profit_at t ep f (worst t lo hi)).
  Proof.
    intros O N IT. assert (M : marked_at c i t (cb_eqm b)).
    { destruct (C91_cobra _ _ _ _ _ _ O _ _ _ N) as [(U & _)|(j & t' & (U1 & (o & U2 & U3) & U4) & U5)].
      - pose proof (U i _ (le_n _) N) as X. cbn [fst] in X. congruence.
      - destruct (Nat.eq_dec j i) as [->|D].
        + rewrite U2 in N. injection N as ->. cbn [fst] in U3. rewrite IT in U3. injection U3 as <-. exact U5.
        + pose proof (U4 i _ ltac:(lia) N) as X. cbn [fst] in X. congruence. }
    destruct M as (lo & hi & ep & f & M1 & M2 & M3 & M4 & M5 & M6).
    exists lo, hi, ep, f, (e_net (cb_eqm b)). repeat split; try assumption. unfold adverse. cbn [snd]. rewrite M5. reflexivity.
  Qed.
End C91.

(** The run of [C91_refuted]: its last bar is flat, and its band is that of
    the trade of bar 1. *)
Lemma band_after_two {F : Type} {NF : Num F} (cfg : sconfig F) c sigs os :
  observed equity_step cfg (equity_new (sc_capital cfg)) c sigs os ->
  map (fun o => is_some (in_trade (fst o))) os = [true; true; false; false] ->
  exists s e t, nth_error os 3 = Some (s, e) /\ in_trade s = None /\ last_in_trade os 3 1 t /\ marked_at c 1 t e.
Proof.
  intros R G. pose proof (C91_band _ _ _ _ R) as B. clear R.
  destruct os as [|[s0 e0] [|[s1 e1] [|[s2 e2] [|[s3 e3] [|]]]]]; try discriminate G.
  cbn [map fst] in G. injection G as G0 G1 G2 G3.
  destruct (in_trade s1) as [t1|] eqn:I1; [|discriminate G1].
  destruct (in_trade s2) eqn:I2; [discriminate G2|].
  destruct (in_trade s3) eqn:I3; [discriminate G3|].
  assert (LT : last_in_trade [(s0, e0); (s1, e1); (s2, e2); (s3, e3)] 3 1 t1).
  { split; [lia|]. split; [exists (s1, e1); split; [reflexivity|exact I1]|].
    intros k o K1 K2. destruct k as [|[|[|[|k]]]]; try lia; cbn in K2; injection K2 as <-; assumption. }
  exists s3, e3, t1. split; [reflexivity|]. split; [exact I3|]. split; [exact LT|].
  destruct (B 3%nat s3 e3 eq_refl) as [(U & _)|(j & t & (U1 & (o & U2 & U3) & U4) & U5)].
  { pose proof (U 1%nat _ ltac:(lia) eq_refl) as X. cbn [fst] in X. congruence. }
  assert (j = 1%nat) as ->.
  { destruct LT as (_ & _ & L4). destruct (Nat.lt_trichotomy j 1) as [D|[D|D]]; [|exact D|].
    - pose proof (U4 1%nat _ ltac:(lia) eq_refl) as X. cbn [fst] in X. congruence.
    - pose proof (L4 j o ltac:(lia) U2). congruence. }
  cbn in U2. injection U2 as <-. cbn [fst] in U3. rewrite I1 in U3. injection U3 as <-. exact U5.
Qed.
Example C91_band_ex : exists os s e t,
  observed equity_step (cfg_of true false false) (equity_new (sc_capital (cfg_of true false false))) ctx91 [Some Long; None; Some Short; None] os /\
  nth_error os 3 = Some (s, e) /\ in_trade s = None /\ last_in_trade os 3 1 t /\ marked_at ctx91 1 t e.
Proof.
  assert (G : rmap (map (fun o => is_some (in_trade (fst o))))
      (run (metered equity_step) ctx91 (strategy_new (cfg_of true false false), equity_new (sc_capital (cfg_of true false false)))
      [Some Long; None; Some Short; None]) = Ok [true; true; false; false]) by (vm_compute; reflexivity).
  destruct (run (metered equity_step) ctx91 (strategy_new (cfg_of true false false), equity_new (sc_capital (cfg_of true false false)))
    [Some Long; None; Some Short; None]) as [os|] eqn:R; [|discriminate G].
  cbn [rmap] in G. assert (G' : map (fun o => is_some (in_trade (fst o))) os = [true; true; false; false]) by congruence.
  destruct (band_after_two _ _ _ os R G') as (s & e & t & H). exists os, s, e, t. split; [exact R|exact H].
Qed.
