(** * PropFigures: C127, what the figures of a report can be in f64. *)
From Coq Require Import Reals Lra Lia Psatz.
From Flocq Require Import Core Relative IEEE754.BinarySingleNaN.
From Verif Require Import PropWin PropVar PropMetrics PropMetrics2 PropRange PMono PIeee PRound.
From Verif Require Import PStrategy PMetrics PropStrategy Inst.
Local Open Scope R_scope.
Notation rat := PropMetrics.ratio.

Lemma seen {F : Type} {NF : Num F} {M : Type} (mstep : ctx F -> M -> strategy F -> res (M * unit)) cfg m0 c sigs os s m :
  observed mstep cfg m0 c sigs os -> newest os = Some (s, m) -> after cfg c sigs s.
Proof.
  intros O N. destruct (metered_ind _ _ _ _ _ _ (fun _ _ _ => True) O) as (s1 & m1 & _ & R1 & _ & H); [exact I|auto|].
  destruct H as [-> | H]; [discriminate|]. rewrite N in H. injection H as <- <-. eexists; exact R1.
Qed.

(** ** Sums of numbers that are not negative. *)
Section Sums.
  Variable log10 : f64 -> f64.
  #[local] Instance N127 : Num f64 := IEEE log10.
  #[local] Instance O127 : OrdNum f64 := IEEEOrd log10.
  Notation zero := (f64_ofZ 0).
  Lemma nn_zero : nn zero. Proof. right. split; [reflexivity|]. cbn. lra. Qed.
  Lemma nn_le_iff (x y : f64) : nn x -> nn y -> (Bleb x y = true <-> y = B754_infinity false \/ (is_finite x = true /\ is_finite y = true /\ B2R x <= B2R y)).
  Proof.
    intros [->|[Fx Px]] [->|[Fy Py]].
    - split; auto.
    - split; [intros H; destruct y; discriminate|]. intros [->|(H & _)]; discriminate.
    - split; [auto|]. intros _. destruct x as [[]|[]| |[] m e H]; try discriminate; reflexivity.
    - rewrite Bleb_correct by assumption. destruct (Rle_bool_spec (B2R x) (B2R y)); split; auto; try discriminate. intros [->|(_ & _ & H1)]; [discriminate|lra].
  Qed.
  Lemma plus_grows (x y : f64) : nn x -> nn y -> Bleb x (Bplus mode_NE x y) = true /\ Bleb y (Bplus mode_NE x y) = true.
  Proof.
    intros Nx Ny. pose proof (plus_nn x y Nx Ny) as Np.
    destruct Nx as [->|[Fx Px]]; [destruct Ny as [->|[Fy Py]]; [split; reflexivity|]; destruct y as [[]|[]| |[] m e H]; try discriminate; split; reflexivity|].
    destruct Ny as [->|[Fy Py]]; [destruct x as [[]|[]| |[] m e H]; try discriminate; split; reflexivity|].
    pose proof (plus_rounded x y Fx Fy) as PR.
    assert (G : forall a : f64, is_finite a = true -> 0 <= B2R a -> B2R a <= B2R x + B2R y -> Bleb a (Bplus mode_NE x y) = true).
    { intros a Fa Pa L. apply nn_le_iff; [right; auto|exact Np|]. destruct PR as [(F & V & _)|[[E _]|[E H]]].
      - right. split; [exact Fa|]. split; [exact F|]. rewrite V. rewrite <- (rnd_exact a). apply rnd_le, L.
      - left. exact E.
      - exfalso. pose proof (rnd_0_ge (B2R x + B2R y) ltac:(lra)). pose proof (bpow_gt_0 radix2 1024). lra. }
    split; apply G; try assumption; lra.
  Qed.
  Lemma nn_trans (x y z : f64) : Bleb x y = true -> Bleb y z = true -> Bleb x z = true.
  Proof. exact (@le_trans f64 N127 O127 x y z). Qed.
  Lemma total_snoc (l : list f64) x : total (l ++ [x]) = Bplus mode_NE (total l) x.
  Proof. unfold total. rewrite fold_left_app. reflexivity. Qed.
  Lemma total_nn (l : list f64) : Forall nn l -> nn (total l).
  Proof.
    induction l as [|x l IH] using rev_ind; intros H; [exact nn_zero|]. apply Forall_app in H. destruct H as [H1 H2]. inversion H2; subst.
    rewrite total_snoc. apply plus_nn; auto.
  Qed.
  Lemma total_ge (l : list f64) x : Forall nn l -> In x l -> Bleb x (total l) = true.
  Proof.
    induction l as [|y l IH] using rev_ind; intros H I; [destruct I|]. apply Forall_app in H. destruct H as [H1 H2]. inversion H2 as [|? ? Hy _]; subst.
    rewrite total_snoc. destruct (plus_grows (total l) y (total_nn l H1) Hy) as [G1 G2].
    apply in_app_or in I. destruct I as [I|[<-|[]]]; [|exact G2]. eapply nn_trans; [apply IH; assumption|exact G1].
  Qed.
  Lemma pos_nn (x : f64) : Bltb zero x = true -> nn x.
  Proof.
    intros H. destruct x as [s|[]| |[] m e E]; try discriminate; [left; reflexivity|]. right. split; [reflexivity|].
    cbn [B2R cond_Zopp]. left. apply F2R_gt_0. reflexivity.
  Qed.
  Lemma neg_nn (x : f64) : Bltb x zero = true -> nn (Babs x).
  Proof.
    intros H. destruct x as [s|[]| |[] m e E]; try discriminate; [left; reflexivity|]. right. split; [reflexivity|].
    cbn [Babs B2R cond_Zopp]. left. apply F2R_gt_0. reflexivity.
  Qed.
  Lemma neg_abs (x : f64) : Bltb x zero = true -> Bltb zero (Babs x) = true.
  Proof. intros H. destruct x as [s|[]| |[] m e E]; try discriminate; reflexivity. Qed.
  Lemma not_zero (x y : f64) : Bltb zero x = true -> Bleb x y = true -> Beqb y zero = false.
  Proof.
    intros H L. destruct (Beqb y zero) eqn:E; [|reflexivity]. exfalso.
    destruct y as [sy|sy| |sy my ey Hy]; try discriminate; try (destruct sy; discriminate).
    destruct x as [s|[]| |[] m e Hx]; try discriminate; destruct sy; discriminate.
  Qed.

  Lemma filter_false {A} (p : A -> bool) l : (forall x, In x l -> p x = false) -> filter p l = [].
  Proof. induction l as [|x l IH]; intros H; [reflexivity|]. cbn [filter]. rewrite (H x (or_introl eq_refl)). apply IH. intros y I. apply H. right. exact I. Qed.
  (** ** Gross profit and gross loss. *)
  Theorem C127_gross (cfg : sconfig f64) c sigs s : after cfg c sigs s ->
    let gp := sm_gross_profit (s_metrics s) in let gl := sm_gross_loss (s_metrics s) in
    at_least_zero gp /\ at_least_zero gl /\
    (forall t, In t (s_trades s) -> t_closed t = true ->
       (fltb zero (t_pnl t) = true -> fleb (t_pnl t) gp = true) /\
       (fltb (t_pnl t) zero = true -> fleb (fabs (t_pnl t)) gl = true)) /\
    (feqb gp zero = true <-> forall t, In t (s_trades s) -> t_closed t = true -> fltb zero (t_pnl t) = false) /\
    (feqb gl zero = true <-> forall t, In t (s_trades s) -> t_closed t = true -> fltb (t_pnl t) zero = false).
  Proof.
    intros A gp gl. pose proof (@C30_totals f64 N127 O127 cfg c sigs s A) as T. cbv zeta in T. destruct T as (_ & _ & _ & _ & GP & GL & _).
    fold gp in GP. fold gl in GL.
    set (ps := closed_pnls (s_trades s)) in *.
    assert (IN : forall x, In x ps <-> exists t, In t (s_trades s) /\ t_closed t = true /\ t_pnl t = x).
    { intros x. unfold ps, closed_pnls. rewrite in_map_iff. split.
      - intros (t & E & I). apply filter_In in I. exists t. tauto.
      - intros (t & I & C & E). exists t. rewrite filter_In. auto. }
    assert (W : Forall nn (filter (fun x => fltb zero x) ps)).
    { apply Forall_forall. intros x I. apply filter_In in I. apply pos_nn, I. }
    assert (L : Forall nn (map fabs (filter (fun x => fltb x zero) ps))).
    { apply Forall_forall. intros x I. apply in_map_iff in I. destruct I as (y & <- & I). apply filter_In in I. apply neg_nn, I. }
    assert (GP' : gp = total (filter (fun x => fltb zero x) ps)) by exact GP.
    assert (GL' : gl = total (map fabs (filter (fun x => fltb x zero) ps))) by exact GL.
    assert (UP : forall t, In t (s_trades s) -> t_closed t = true ->
       (fltb zero (t_pnl t) = true -> fleb (t_pnl t) gp = true) /\ (fltb (t_pnl t) zero = true -> fleb (fabs (t_pnl t)) gl = true)).
    { intros t I C. assert (Ip : In (t_pnl t) ps) by (apply IN; eauto). split; intros H.
      - rewrite GP'. apply total_ge; [exact W|]. apply filter_In. auto.
      - rewrite GL'. apply total_ge; [exact L|]. apply in_map_iff. exists (t_pnl t). rewrite filter_In. auto. }
    split; [rewrite GP'; apply nn_az, total_nn, W|]. split; [rewrite GL'; apply nn_az, total_nn, L|]. split; [exact UP|]. split; split.
    - intros E t I C. destruct (fltb zero (t_pnl t)) eqn:P; [|reflexivity]. pose proof (not_zero _ gp P (proj1 (UP t I C) P)) as Q. exfalso. change (Beqb gp zero = true) in E. congruence.
    - intros H. assert (E : filter (fun x => fltb zero x) ps = []).
      { apply filter_false. intros x I. apply IN in I. destruct I as (t & I & C & <-). apply H; assumption. }
      rewrite GP', E. reflexivity.
    - intros E t I C. destruct (fltb (t_pnl t) zero) eqn:P; [|reflexivity]. pose proof (not_zero _ gl (neg_abs _ P) (proj2 (UP t I C) P)) as Q. exfalso. change (Beqb gl zero = true) in E. congruence.
    - intros H. assert (E : filter (fun x => fltb x zero) ps = []).
      { apply filter_false. intros x I. apply IN in I. destruct I as (t & I & C & <-). apply H; assumption. }
      rewrite GL', E. reflexivity.
  Qed.

  (** ** Ratios and averages. *)
  Lemma az_nn (x : f64) : Bleb zero x = true -> nn x.
  Proof.
    intros H. destruct x as [s|[]| |[] m e E]; try discriminate.
    - right. split; [reflexivity|]. cbn. lra.
    - left. reflexivity.
    - right. split; [reflexivity|]. cbn [B2R cond_Zopp]. left. apply F2R_gt_0. reflexivity.
  Qed.
  Lemma nn_pz_or (x : f64) : nn x -> nz x.
  Proof.
    intros [->|[Fx Px]]; [left; right; reflexivity|]. destruct x as [[]|s| |[] m e E]; try discriminate; try (left; right; reflexivity); [right; reflexivity|].
    exfalso. cbn [B2R cond_Zopp] in Px. pose proof (F2R_lt_0 radix2 (Float radix2 (Z.neg m) e) ltac:(reflexivity)). cbn [Z.opp] in Px. apply (Rlt_not_le _ _ H), Px.
  Qed.
  Definition inf : f64 := B754_infinity false.
  (** The quotient of two such numbers, 0 when the divisor is 0. *)
  Lemma rat_nn (a b : f64) : nn a -> nn b -> nonnegative (rat a b) /\ (is_nan (rat a b) = true <-> a = inf /\ b = inf).
  Proof.
    intros Na Nb. unfold rat. change (feqb b (fZ 0)) with (Beqb b zero). destruct (Beqb b zero) eqn:E.
    - split; [right; reflexivity|]. split; [discriminate|]. intros [_ ->]. discriminate.
    - change (@fdiv f64 N127) with (Bdiv (prec := 53) (emax := 1024) mode_NE).
      destruct Nb as [->|[Fb Pb]].
      + destruct Na as [->|[Fa Pa]].
        * split; [left; reflexivity|]. split; [intros _; split; reflexivity|reflexivity].
        * assert (H : exists sg, Bdiv mode_NE a (B754_infinity false : f64) = B754_zero sg) by (destruct a; try discriminate; eexists; reflexivity). destruct H as [sg H].
          rewrite H. split; [right; destruct sg; reflexivity|]. split; [discriminate|]. intros [-> _]. discriminate.
      + assert (Pb' : 0 < B2R b).
        { destruct Pb as [Pb|Pb]; [exact Pb|]. exfalso. rewrite Beqb_correct in E by (exact Fb || reflexivity). rewrite <- Pb in E. cbn in E. destruct (Req_bool_spec 0 0); [discriminate|lra]. }
        pose proof (div_nn a b Na Fb Pb') as Nd. split; [right; apply nn_le, Nd|]. split.
        * intros H. exfalso. destruct Nd as [Nd|[Nd _]]; [rewrite Nd in H; discriminate|]. destruct (Bdiv mode_NE a b); discriminate.
        * intros [_ ->]. discriminate.
  Qed.
  Lemma per_nn (a : f64) n : nn a -> (Z.of_nat n <= 2 ^ 53)%Z -> nn (per a n) /\ Bleb (per a n) a = true.
  Proof.
    intros Na B. unfold per. destruct (Nat.eqb_spec n 0) as [->|Z0]; [split; [exact nn_zero|apply nn_le, Na]|].
    destruct (fin_fZ log10 (Z.of_nat n)) as [F2 V2]; [lia|]. change (@fdiv f64 N127 a (fnat n)) with (Bdiv mode_NE a (f64_ofZ (Z.of_nat n))).
    change (is_finite (f64_ofZ (Z.of_nat n)) = true) in F2. change (B2R (f64_ofZ (Z.of_nat n)) = IZR (Z.of_nat n)) in V2.
    assert (P : 1 <= IZR (Z.of_nat n)) by (apply IZR_le; lia).
    pose proof (div_nn a (f64_ofZ (Z.of_nat n)) Na F2 ltac:(rewrite V2; lra)) as Nd. split; [exact Nd|].
    destruct Na as [->|[Fa Pa]].
    - destruct Nd as [->|[Fd Pd]]; [reflexivity|]. revert Fd. generalize (Bdiv mode_NE (B754_infinity false : f64) (f64_ofZ (Z.of_nat n))). intros z Fz. destruct z as [[]|[]| |[] m e E]; try discriminate; reflexivity.
    - pose proof (div_rounded a (f64_ofZ (Z.of_nat n)) Fa F2 ltac:(rewrite V2; lra)) as D. rewrite V2 in D.
      assert (LE : rnd (B2R a / IZR (Z.of_nat n)) <= B2R a).
      { rewrite <- (rnd_exact a) at 2. apply rnd_le. apply Rmult_le_reg_r with (IZR (Z.of_nat n)); [lra|]. unfold Rdiv. rewrite Rmult_assoc, Rinv_l by lra. nra. }
      destruct D as [(F & V & _)|[[E H]|[E H]]].
      + rewrite Bleb_correct by assumption. apply Rle_bool_true. rewrite V. exact LE.
      + exfalso. pose proof (abs_B2R_lt_emax 53 1024 a). apply Rabs_def2 in H0. lra.
      + rewrite E. destruct a as [[]|[]| |[] m e Ha]; try discriminate; reflexivity.
  Qed.

  (** ** The TradingView report. *)
  Theorem C127_tradingview (cfg : sconfig f64) rfr c sigs os s t :
    observed tv_step cfg (tv_new (strategy_new cfg) rfr) c sigs os -> newest os = Some (s, t) ->
    (Z.of_nat (sm_closed (s_metrics s)) <= 2 ^ 53)%Z ->
    let d := tv_data t in
    at_least_zero (tv_gross_profit d) /\ at_least_zero (tv_gross_loss d) /\
    at_least_zero (tv_avg_winning d) /\ fleb (tv_avg_winning d) (tv_gross_profit d) = true /\
    at_least_zero (tv_avg_losing d) /\ fleb (tv_avg_losing d) (tv_gross_loss d) = true /\
    nonnegative (tv_profit_factor d) /\ (is_nan (tv_profit_factor d) = true <-> tv_gross_profit d = inf /\ tv_gross_loss d = inf) /\
    nonnegative (tv_ratio d) /\ (is_nan (tv_ratio d) = true <-> tv_avg_winning d = inf /\ tv_avg_losing d = inf) /\
    at_least_zero (tv_max_drawdown d) /\ at_least_zero (tv_max_run_up d) /\
    (Bltb zero (sc_capital cfg) = true -> nonnegative (tv_max_drawdown_percent d)).
  Proof.
    intros O N B d. pose proof (seen _ _ _ _ _ _ _ _ O N) as A.
    destruct (C39_formulas _ _ _ _ _ _ _ O N) as (_ & _ & GP & _ & GL & _ & _ & _ & _ & _ & PF & _ & _ & AW & AL & RT & W). fold d in GP, GL, PF, AW, AL, RT.
    destruct (C127_gross cfg c _ s A) as ((Ngp & Lgp) & (Ngl & Lgl) & _). apply az_nn in Lgp, Lgl.
    destruct (per_nn _ (sm_winning (s_metrics s)) Lgp ltac:(lia)) as [W1 W2]. destruct (per_nn _ (sm_losing (s_metrics s)) Lgl ltac:(lia)) as [L1 L2].
    change (tv_avg_winning d = per (sm_gross_profit (s_metrics s)) (sm_winning (s_metrics s))) in AW. change (tv_avg_losing d = per (sm_gross_loss (s_metrics s)) (sm_losing (s_metrics s))) in AL.
    rewrite <- AW in W1, W2. rewrite <- AL in L1, L2. rewrite GP, GL, PF, RT.
    destruct (rat_nn _ _ Lgp Lgl) as [R1 R2]. destruct (rat_nn _ _ W1 L1) as [R3 R4].
    assert (I : In (s, t) os) by (unfold newest in N; eapply nth_error_In; exact N).
    destruct (C38_monotone _ _ _ _ _ O) as [M _]. destruct (M _ I) as [M1 M2]. cbn [snd] in M1, M2. fold d in M1, M2.
    pose proof (nn_az _ (az_nn _ M1)) as Z1. pose proof (nn_az _ (az_nn _ M2)) as Z2.
    split; [apply nn_az, Lgp|]. split; [apply nn_az, Lgl|]. split; [apply nn_az, W1|]. split; [exact W2|]. split; [apply nn_az, L1|]. split; [exact L2|].
    split; [exact R1|]. split; [exact R2|]. split; [exact R3|]. split; [exact R4|]. split; [exact Z1|]. split; [exact Z2|].
    intros K. destruct (C39_percentages _ _ _ _ _ _ _ O N) as [P _]. fold d in P. rewrite P.
    assert (NK : fisnan (sc_capital cfg) = false) by (destruct (sc_capital cfg) as [|[]| |[]]; try discriminate; reflexivity).
    destruct (metered_ind _ _ _ _ _ _ (fun l s t => exists nets eqs, equity_ok cfg nets eqs s (tv_eqm t)) O) as (s1 & t1 & (nets & eqs & Q) & _ & _ & H).
    { exists [], []. apply (equity_ok_new cfg NK). }
    { intros xs x a a' b b' l R ST L (nets & eqs & Q) H. apply tv_step_shape in H. destruct H as (H & _). eexists; eexists. eapply equity_ok_step; eassumption. }
    destruct H as [-> | H]; [discriminate|]. rewrite N in H. injection H as <- <-.
    destruct (eo_nmax _ _ _ _ _ Q) as (_ & NN & G). destruct (G (sc_capital cfg) (or_introl eq_refl)) as [G0|G0]; [congruence|].
    assert (PM : nz (e_net_max (tv_eqm t)) /\ Bltb zero (e_net_max (tv_eqm t)) = true).
    { change (Bleb (sc_capital cfg) (e_net_max (tv_eqm t)) = true) in G0. revert G0 K NN. generalize (sc_capital cfg) (e_net_max (tv_eqm t)). intros x y.
      intros H1 H2 _. pose proof (nn_trans zero x y ltac:(destruct x as [|[]| |[]]; try discriminate; reflexivity) H1) as H3. split; [apply nn_pz_or, az_nn, H3|].
      pose proof (not_zero x y H2 H1) as H4. destruct y as [sy|[]| |[] m e E]; try discriminate; try reflexivity. }
    apply nz_nonneg.
    assert (PD : pz (e_net_max (tv_eqm t))) by (destruct PM as [[PM|PM] PM2]; [exact PM|rewrite PM in PM2; discriminate]).
    assert (G2 : forall x y : f64, nn x -> Bltb zero y = true -> pz y -> nz (Bdiv mode_NE x y)).
    { intros x y Nx Py Ny. destruct (nn_pz_or x Nx) as [Hx| ->]; [left; apply (div_pz log10); assumption|]. destruct y as [|[]| |[]]; try discriminate; right; reflexivity. }
    exact (G2 (tv_max_drawdown d) (e_net_max (tv_eqm t)) (az_nn _ M1) (proj2 PM) PD).
  Qed.

  Lemma filter_len {A} (p : A -> bool) l : (List.length (filter p l) <= List.length l)%nat.
  Proof. induction l as [|x l IH]; [reflexivity|]. cbn [filter]. destruct (p x); cbn [List.length]; lia. Qed.
  Lemma per_within k n : (k <= n)%nat -> (Z.of_nat n <= 2 ^ 53)%Z -> Bleb zero (per (fnat k) n) = true /\ Bleb (per (fnat k) n) (f64_ofZ 1) = true.
  Proof.
    intros Wn B. unfold per. destruct (Nat.eqb_spec n 0) as [Z|Z]; [split; reflexivity|].
    destruct (fin_fZ log10 (Z.of_nat k)) as [F1 V1]; [lia|]. destruct (fin_fZ log10 (Z.of_nat n)) as [F2 V2]; [lia|].
    assert (P : 0 < IZR (Z.of_nat n)) by (apply IZR_lt; lia). assert (P0 : 0 <= IZR (Z.of_nat k)) by (apply IZR_le; lia).
    assert (P1 : IZR (Z.of_nat k) <= IZR (Z.of_nat n)) by (apply IZR_le; lia).
    destruct (fin_fZ log10 0) as [F3 V3]; [cbn; lia|]. destruct (fin_fZ log10 1) as [F4 V4]; [cbn; lia|].
    apply (within_le log10 (@fZ f64 (IEEE log10) 0) (@fZ f64 (IEEE log10) 1)); [exact F3|exact F4|].
    apply div_within; [exact F1|exact F2| |].
    - match goal with |- ?x <> _ => assert (x = IZR (Z.of_nat n)) as -> by exact V2 end. lra.
    - match goal with |- (?a <= ?x / ?y <= ?b)%R => assert (x = IZR (Z.of_nat k)) as -> by exact V1;
          assert (y = IZR (Z.of_nat n)) as -> by exact V2; assert (a = 0%R) as -> by exact V3; assert (b = 1%R) as -> by exact V4 end. split.
      + apply Rmult_le_pos; [exact P0|]. left. apply Rinv_0_lt_compat; exact P.
      + apply Rmult_le_reg_r with (r := IZR (Z.of_nat n)); [exact P|]. unfold Rdiv. rewrite Rmult_assoc, Rinv_l; lra.
  Qed.

  (** ** Signs of the risk ratios. *)
  Lemma div_keeps (k d : f64) : unsigned k -> Beqb k zero = false ->
    (Bltb d zero = false -> Bltb (Bdiv mode_NE d k) zero = false) /\ (Bltb zero d = false -> Bltb zero (Bdiv mode_NE d k) = false).
  Proof.
    intros K NZ. destruct (finite_cases k) as [Fk|[->|[->| ->]]].
    - assert (Z : exists b, Bdiv mode_NE zero k = B754_zero b) by (destruct k as [[]|[]| |[]]; try discriminate Fk; try discriminate NZ; eexists; reflexivity). destruct Z as [b Z].
      assert (Q : forall z : f64, Bltb z (B754_zero b) = Bltb z zero /\ Bltb (B754_zero b) z = Bltb zero z) by (intros z; destruct z as [[]|[]| |[] m z H]; split; reflexivity).
      split; intros H.
      + pose proof (div_mono k zero d K H) as M. rewrite Z in M. unfold not_above in M. rewrite (proj1 (Q _)) in M. exact M.
      + pose proof (div_mono k d zero K H) as M. rewrite Z in M. unfold not_above in M. rewrite (proj2 (Q _)) in M. exact M.
    - destruct d as [[]|[]| |[] m z H]; split; cbn; intros; try discriminate; reflexivity.
    - destruct K; discriminate.
    - destruct d as [[]|[]| |[] m z H]; split; reflexivity.
  Qed.
  (** [x] is not shown below / above zero. *)
  Notation not_neg x := (fltb x (f64_ofZ 0) = false).
  Notation not_pos x := (fltb (f64_ofZ 0) x = false).
  Lemma rat_sign (m r b : f64) : unsigned b ->
    (fltb m r = false -> not_neg (rat (fsub m r) b)) /\ (fltb r m = false -> not_pos (rat (fsub m r) b)).
  Proof.
    intros U. unfold rat. change (feqb b (fZ 0)) with (Beqb b zero). destruct (Beqb b zero) eqn:E; [split; reflexivity|].
    destruct (div_keeps b (Bminus mode_NE m r) U E) as [D1 D2]. split; intros H.
    - apply D1. exact (proj1 (sub_wn m r H)).
    - apply D2. exact (proj2 (sub_wn r m H)).
  Qed.
  Lemma stdev_unsigned (vs : list f64) : unsigned (stdev vs).
  Proof. apply sqrt_pz, (var_nonneg log10). Qed.
  (** The TradingView figures: not negative when the mean is not below the risk-free rate. *)
  Theorem C127_tradingview_risk (cfg : sconfig f64) rfr c sigs os s t :
    observed tv_step cfg (tv_new (strategy_new cfg) rfr) c sigs os -> newest os = Some (s, t) ->
    let m := mean (map (fun o => fsub (e_net (tv_eqm (snd o))) (sc_capital cfg)) os) in
    (fltb m rfr = false -> not_neg (tv_sharpe (tv_data t)) /\ not_neg (tv_sortino (tv_data t))) /\
    (fltb rfr m = false -> not_pos (tv_sharpe (tv_data t)) /\ not_pos (tv_sortino (tv_data t))).
  Proof.
    intros O N m. destruct (C72_tradingview_partial _ _ _ _ _ _ _ O N) as [E1 E2]. rewrite E1, E2. fold m.
    destruct (rat_sign m rfr _ (stdev_unsigned (map (fun o => fsub (e_net (tv_eqm (snd o))) (sc_capital cfg)) os))) as [A1 A2].
    destruct (rat_sign m rfr _ (stdev_unsigned (map loss_part (map (fun o => fsub (e_net (tv_eqm (snd o))) (sc_capital cfg)) os)))) as [B1 B2].
    split; intros H; split; auto.
  Qed.
  (** The Cobra figures: same with rate 0; Omega is never negative. *)
  Theorem C127_cobra_risk (cfg : sconfig f64) start c sigs os s b :
    observed cobra_step cfg (cobra_new (strategy_new cfg) false start) c sigs os -> newest os = Some (s, b) ->
    let rs := counted c start (bar_returns (sc_capital cfg) (map (fun o => sm_equity (s_metrics (fst o))) os)) in
    (fltb (mean rs) zero = false -> not_neg (cb_sharpe b) /\ not_neg (cb_sortino b)) /\
    (fltb zero (mean rs) = false -> not_pos (cb_sharpe b) /\ not_pos (cb_sortino b)) /\
    nonnegative (cb_omega b) /\
    nonnegative (cb_profit_factor b) /\
    ((Z.of_nat (sm_closed (s_metrics s)) <= 2 ^ 53)%Z -> at_least_zero (cb_profitable b) /\ fleb (cb_profitable b) (f64_ofZ 1) = true) /\
    at_least_zero (cb_intra_dd b).
  Proof.
    intros O N rs. pose proof (seen _ _ _ _ _ _ _ _ O N) as A. destruct (C40_ratios _ _ _ _ _ _ _ O N) as (_ & PF & PP & SH & SO & OM). cbv zeta in SH, SO, OM. fold rs in SH, SO, OM.
    assert (U365 : unsigned (Bsqrt mode_NE (f64_ofZ 365))) by (apply sqrt_pz; right; reflexivity).
    assert (AN : forall x : f64, let y := match rs with [] => fZ 0 | _ => fmul x (fsqrt (fZ 365)) end in (not_neg x -> not_neg y) /\ (not_pos x -> not_pos y)).
    { intros x. cbv zeta. destruct (mult_keeps _ x U365) as [K1 K2]. destruct rs; [split; reflexivity|]. split; [exact K1|exact K2]. }
    assert (E1 : cb_sharpe b = match rs with [] => fZ 0 | _ => fmul (rat (fsub (mean rs) (fZ 0)) (stdev rs)) (fsqrt (fZ 365)) end) by (rewrite SH; destruct rs; reflexivity).
    assert (E2 : cb_sortino b = match rs with [] => fZ 0 | _ => fmul (rat (fsub (mean rs) (fZ 0)) (stdev (map loss_part rs))) (fsqrt (fZ 365)) end) by (rewrite SO; destruct rs; reflexivity).
    assert (E3 : cb_omega b = match rs with [] => fZ 0 | _ => fmul (rat (fsub (fsum (map gains_part rs)) (fZ 0)) (fsum (map loss_part rs))) (fsqrt (fZ 365)) end) by (rewrite OM; destruct rs; reflexivity).
    destruct (rat_sign (mean rs) zero _ (stdev_unsigned rs)) as [A1 A2].
    destruct (rat_sign (mean rs) zero _ (stdev_unsigned (map loss_part rs))) as [B1 B2].
    split; [|split; [|split; [|split; [|split]]]].
    - intros H. rewrite E1, E2. split; apply AN; auto.
    - intros H. rewrite E1, E2. split; apply AN; auto.
    - rewrite E3.
      assert (P1 : Forall nz (map gains_part rs)).
      { apply Forall_forall. intros x I. apply in_map_iff in I. destruct I as (y & <- & _). unfold gains_part.
        destruct y as [[]|[]| |[] m e E]; cbn; try (left; right; reflexivity); try (right; reflexivity); left; left; reflexivity. }
      assert (P2 : Forall nz (map loss_part rs)).
      { apply Forall_forall. intros x I. apply in_map_iff in I. destruct I as (y & <- & _). unfold loss_part. left. right.
        change (Bsign (Babs (@fmin f64 N127 zero y)) = false). destruct (@fmin f64 N127 zero y); reflexivity. }
      pose proof (sum_pz log10 _ P1) as S1. pose proof (sum_pz log10 _ P2) as S2.
      assert (S3 : pz (Bminus mode_NE (fsum (map gains_part rs)) zero)).
      { destruct S1 as [S1|S1]; [left; destruct (fsum (map gains_part rs)); try discriminate; reflexivity|]. destruct (fsum (map gains_part rs)) as [[]|[]| |[] m e E] eqn:Q; try discriminate; try (right; reflexivity); left; reflexivity. }
      assert (S4 : pz (rat (fsub (fsum (map gains_part rs)) (fZ 0)) (fsum (map loss_part rs)))).
      { unfold rat. destruct (feqb (fsum (map loss_part rs)) (fZ 0)); [right; reflexivity|]. apply (div_pz log10); [exact S3|exact S2]. }
      destruct rs; [right; reflexivity|]. apply nz_nonneg. left. apply (mult_pz log10); [exact S4|exact U365].
    - rewrite PF. destruct (Nat.eqb (sm_closed (s_metrics s)) 0); [right; reflexivity|].
      destruct (C127_gross cfg c _ s A) as ((_ & Lgp) & (_ & Lgl) & _). apply az_nn in Lgp, Lgl. apply (rat_nn _ _ Lgp Lgl).
    - intros B. pose proof (@C30_totals f64 N127 O127 cfg c sigs s A) as T. cbv zeta in T. destruct T as (_ & C & W & _).
      assert (LE : (sm_winning (s_metrics s) <= sm_closed (s_metrics s))%nat) by (rewrite C, W; apply filter_len).
      rewrite PP. destruct (per_within (sm_winning (s_metrics s)) (sm_closed (s_metrics s)) LE B) as [Q1 Q2]. split; [apply nn_az, az_nn, Q1|exact Q2].
    - apply nn_az, az_nn. exact (C90_nonneg _ _ _ _ _ _ _ _ O N).
  Qed.

  (** ** The equity drawdown of Cobra. *)
  Definition below_one : f64 := @B754_finite 53 1024 false (2 ^ 53 - 1)%positive (-53) eq_refl.
  Lemma below_one_val : B2R below_one = 1 - bpow radix2 (-53).
  Proof. cbn [B2R below_one]. unfold F2R. cbn [Fnum Fexp cond_Zopp]. assert (E : bpow radix2 53 * bpow radix2 (-53) = 1) by (rewrite <- bpow_plus; reflexivity).
    change (IZR (Z.pos (2 ^ 53 - 1))) with (IZR (2 ^ 53 - 1)). rewrite minus_IZR. change (IZR (2 ^ 53)) with (bpow radix2 53). lra. Qed.
  (** Two floats one of which is smaller: their quotient does not round to one. *)
  Lemma quot_gap (e m : f64) : 0 < B2R e -> B2R e < B2R m -> B2R e / B2R m <= 1 - bpow radix2 (-53).
  Proof.
    intros P L. pose proof (fmt e) as Fe. pose proof (fmt m) as Fm.
    assert (SU : B2R e + ulp radix2 fexp64 (B2R e) <= B2R m).
    { rewrite <- succ_eq_pos by lra. apply succ_le_lt; try assumption. apply BinarySingleNaN.fexp_correct. reflexivity. }
    rewrite ulp_neq_0 in SU by lra. set (k := cexp radix2 fexp64 (B2R e)) in *.
    assert (G : B2R e = IZR (Ztrunc (scaled_mantissa radix2 fexp64 (B2R e))) * bpow radix2 k) by exact Fe.
    set (M := Ztrunc (scaled_mantissa radix2 fexp64 (B2R e))) in *.
    pose proof (bpow_gt_0 radix2 k) as Pk.
    assert (U : B2R e < bpow radix2 (k + 53)).
    { apply Rlt_le_trans with (bpow radix2 (mag radix2 (B2R e))).
      - pose proof (bpow_mag_gt radix2 (B2R e)) as H. rewrite Rabs_pos_eq in H by lra. exact H.
      - apply bpow_le. unfold k, cexp, SpecFloat.fexp. lia. }
    rewrite bpow_plus in U. change (bpow radix2 53) with (IZR (2 ^ 53)) in U.
    assert (MU : (M < 2 ^ 53)%Z) by (apply lt_IZR; nra).
    assert (MU' : IZR M <= IZR (2 ^ 53) - 1) by (rewrite <- minus_IZR; apply IZR_le; lia).
    assert (E : bpow radix2 (-53) * IZR (2 ^ 53) = 1) by (change (IZR (2 ^ 53)) with (bpow radix2 53); rewrite <- bpow_plus; reflexivity).
    pose proof (bpow_gt_0 radix2 (-53)) as Pq. set (q53 := bpow radix2 (-53)) in *.
    apply Rmult_le_reg_r with (B2R m); [lra|]. unfold Rdiv. rewrite Rmult_assoc, Rinv_l, Rmult_1_r by lra.
    assert (Q1 : q53 < 1) by nra. assert (Q2 : q53 * (IZR M + 1) <= 1) by nra.
    apply Rle_trans with ((1 - q53) * (B2R e + bpow radix2 k)); [|nra]. rewrite G. nra.
  Qed.
  Lemma drop_sign (e m : f64) : is_finite e = true -> is_finite m = true -> 0 < B2R m ->
    let x := Bminus mode_NE (Bdiv mode_NE e m) (f64_ofZ 1) in
    (B2R e = B2R m -> Beqb x zero = true) /\ (B2R e < B2R m -> Bltb x zero = true).
  Proof.
    intros Fe Fm Pm x. assert (V1 : B2R (f64_ofZ 1) = 1) by (exact (proj2 (fin_fZ log10 1 ltac:(cbn; lia)))). pose proof (div_rounded e m Fe Fm Pm) as D. split; intros H.
    - assert (Q : B2R e / B2R m = 1) by (rewrite H; apply Rinv_r; lra). rewrite Q in D.
      assert (R1 : rnd 1 = 1) by (rewrite <- V1; exact (rnd_exact (f64_ofZ 1))). unfold rounded in D. rewrite R1 in D.
      pose proof (bpow_lt radix2 0 1024 ltac:(lia)) as B1. change (bpow radix2 0) with 1 in B1. destruct D as [(F & V & _)|[[_ D]|[_ D]]]; try lra.
      pose proof (minus_rounded (Bdiv mode_NE e m) (f64_ofZ 1) F eq_refl) as X. fold x in X. rewrite V in X. rewrite V1 in X. replace (1 - 1) with 0 in X by lra.
      unfold rounded in X. rewrite round_0 in X by apply valid_rnd_round_mode. destruct X as [(F' & V' & _)|[[_ X]|[_ X]]]; try lra.
      rewrite Beqb_correct by (exact F' || reflexivity). rewrite V'. cbn. apply Req_bool_true. reflexivity.
    - assert (LE : rnd (B2R e / B2R m) <= B2R below_one).
      { rewrite <- (rnd_exact below_one). apply rnd_le. rewrite below_one_val. destruct (Rlt_le_dec 0 (B2R e)) as [Pe|Pe]; [apply quot_gap; assumption|].
        apply Rle_trans with 0; [|pose proof (bpow_lt radix2 (-53) 0 ltac:(lia)); change (bpow radix2 0) with 1 in *; lra].
        apply Rmult_le_reg_r with (B2R m); [lra|]. unfold Rdiv. rewrite Rmult_assoc, Rinv_l by lra. lra. }
      rewrite below_one_val in LE. pose proof (bpow_gt_0 radix2 (-53)) as Q. pose proof (bpow_lt radix2 0 1024 ltac:(lia)) as B1. change (bpow radix2 0) with 1 in B1.
      destruct D as [(F & V & _)|[[_ D]|[D _]]]; [|lra|].
      + rewrite <- V in LE. destruct (sign_rounded x _ (minus_rounded (Bdiv mode_NE e m) (f64_ofZ 1) F eq_refl)) as [_ G].
        apply G. apply (sub_sign (Bdiv mode_NE e m) (f64_ofZ 1) F eq_refl). rewrite V1. lra.
      + unfold x. rewrite D. reflexivity.
  Qed.

  Lemma observed_prefix {M : Type} (mstep : ctx f64 -> M -> strategy f64 -> res (M * unit)) cfg m0 c sigs os i o :
    observed mstep cfg m0 c sigs os -> nth_error os i = Some o ->
    observed mstep cfg m0 c (firstn (S i) sigs) (firstn (S i) os) /\ newest (firstn (S i) os) = Some o.
  Proof.
    intros O N. unfold observed in *. pose proof (run_length _ _ _ _ _ O) as L. assert (LT : (i < List.length os)%nat) by (apply nth_error_Some; congruence). split.
    - pose proof O as O'. unfold run in O. rewrite <- (firstn_skipn (S i) sigs) in O. rewrite run_st_app in O.
      destruct (run_st (metered mstep) c (strategy_new cfg, m0) (firstn (S i) sigs)) as [[s1 o1]|] eqn:E1; [|discriminate O]. cbn [rbind] in O.
      destruct (run_st (metered mstep) _ s1 (skipn (S i) sigs)) as [[s2 o2]|]; [|discriminate O]. cbn in O. injection O as <-.
      unfold run. rewrite E1. cbn [rmap rbind snd]. f_equal.
      assert (L1 : List.length o1 = List.length (firstn (S i) sigs)) by (eapply run_length; unfold run; rewrite E1; reflexivity).
      rewrite firstn_length in L1. rewrite firstn_app. replace (S i - List.length o1)%nat with O by lia. rewrite firstn_O, app_nil_r. symmetry. apply firstn_all2. lia.
    - unfold newest. rewrite firstn_length. replace (Nat.min (S i) (List.length os) - 1)%nat with i by lia. rewrite nth_error_firstn_lt by lia. exact N.
  Qed.

  Lemma fin_le_real (x y : f64) : is_finite x = true -> is_finite y = true -> (fleb x y = true <-> B2R x <= B2R y).
  Proof. intros Fx Fy. change (fleb x y) with (Bleb x y). rewrite Bleb_correct by assumption. destruct (Rle_bool_spec (B2R x) (B2R y)); split; intros; try lra; try discriminate; reflexivity. Qed.
  (** [worth]: the equity the strategy reports after each bar. *)
  Theorem C127_drawdown (cfg : sconfig f64) est start c sigs os s b :
    observed cobra_step cfg (cobra_new (strategy_new cfg) est start) c sigs os -> newest os = Some (s, b) ->
    is_finite (sc_capital cfg) = true -> fltb zero (sc_capital cfg) = true ->
    let worth := map (fun o => sm_equity (s_metrics (fst o))) os in
    is_nan (cb_eq_max_dd b) = false /\ fleb (cb_eq_max_dd b) zero = true /\
    (Forall (fun w => fleb zero w = true) worth -> fleb (f64_ofZ (-1)) (cb_eq_max_dd b) = true) /\
    (Forall (fun w => is_finite w = true) worth ->
       (feqb (cb_eq_max_dd b) zero = true <->
        forall i j x y, (i <= j)%nat -> nth_error (sc_capital cfg :: worth) i = Some x -> nth_error (sc_capital cfg :: worth) j = Some y -> fleb x y = true)).
  Proof.
    intros O N FK PK worth. assert (NK : fisnan (sc_capital cfg) = false) by (destruct (sc_capital cfg); try discriminate; reflexivity).
    assert (RK : 0 < B2R (sc_capital cfg)) by (apply (ltb_zero_fin _ FK); exact PK).
    destruct (C40_drawdown cfg est start c sigs os s b NK O N) as ((IN & ND & LO) & _).
    (* every bar *)
    assert (EV : forall i o, nth_error os i = Some o -> let e := cb_eqm (snd o) in e_equity e = sm_equity (s_metrics (fst o)) /\
      greatest_of (e_equity_max e) (sc_capital cfg :: firstn (S i) worth) /\ nth_error worth i = Some (e_equity e)).
    { intros i [so bo] No. destruct (observed_prefix _ _ _ _ _ _ _ _ O No) as [O1 N1]. destruct (C40_drawdown cfg est start c _ _ so bo NK O1 N1) as (_ & E1 & G & _).
      cbn [snd fst]. split; [exact E1|]. split; [unfold worth; rewrite firstn_map; exact G|]. unfold worth. rewrite nth_error_map, No. cbn [option_map fst]. f_equal. symmetry. exact E1. }
    assert (TOP : forall i o, nth_error os i = Some o -> let m := e_equity_max (cb_eqm (snd o)) in Bleb (sc_capital cfg) m = true /\ nn m /\ Beqb m zero = false).
    { intros i o No. destruct (EV i o No) as (_ & (_ & NM & G) & _). destruct (G (sc_capital cfg) (or_introl eq_refl)) as [G0|G0]; [congruence|]. cbv zeta.
      split; [exact G0|]. split; [|apply (not_zero (sc_capital cfg)); [exact PK|exact G0]]. apply az_nn. eapply nn_trans; [|exact G0]. apply nn_le, pos_nn, PK. }
    split; [exact ND|]. split; [destruct (LO (fZ 0) (or_introl eq_refl)) as [Z|Z]; [discriminate Z|exact Z]|]. split.
    - intros W. destruct IN as [E|I]; [change (Bleb (f64_ofZ (-1)) (cb_eq_max_dd b) = true); rewrite <- E; reflexivity|].
      apply in_map_iff in I. destruct I as (o & E & I). apply In_nth_error in I. destruct I as [i No]. destruct (EV i o No) as (E1 & _ & NW). destruct (TOP i o No) as (_ & NM & ZM).
      cbv zeta in E. set (e := e_equity (cb_eqm (snd o))) in *. set (m := e_equity_max (cb_eqm (snd o))) in *.
      assert (Ne : nn e) by (apply az_nn; rewrite Forall_forall in W; apply W; eapply nth_error_In; exact NW).
      destruct (rat_nn e m Ne NM) as [Q _]. unfold rat in Q. change (feqb m (fZ 0)) with (Beqb m zero) in Q. rewrite ZM in Q.
      assert (Q2 : not_above zero (Bdiv mode_NE e m)).
      { destruct Q as [Q|Q]; [|apply le_not_above, Q]. change (is_nan (Bdiv mode_NE e m) = true) in Q. apply not_above_cases. auto. }
      pose proof (minus_above _ (f64_ofZ 1) _ (f64_ofZ 1) Q2 (not_above_refl _)) as Q3.
      change (not_above (f64_ofZ (-1)) (Bminus mode_NE (Bdiv mode_NE e m) (f64_ofZ 1))) in Q3. change (Bminus mode_NE (Bdiv mode_NE e m) (f64_ofZ 1) = cb_eq_max_dd b) in E. rewrite E in Q3.
      destruct (not_below_le _ _ Q3 eq_refl) as [Q4|Q4]; [|exact Q4]. change (is_nan (cb_eq_max_dd b) = false) in ND. congruence.
    - intros FW. rewrite Forall_forall in FW.
      assert (FT : forall i o, nth_error os i = Some o -> is_finite (e_equity (cb_eqm (snd o))) = true /\ is_finite (e_equity_max (cb_eqm (snd o))) = true /\ 0 < B2R (e_equity_max (cb_eqm (snd o))) /\
         B2R (e_equity (cb_eqm (snd o))) <= B2R (e_equity_max (cb_eqm (snd o)))).
      { intros i o No. destruct (EV i o No) as (_ & (IM & _ & G) & NW). destruct (TOP i o No) as (LK & _).
        assert (F1 : is_finite (e_equity (cb_eqm (snd o))) = true) by (apply FW; eapply nth_error_In; exact NW).
        assert (F2 : is_finite (e_equity_max (cb_eqm (snd o))) = true) by (destruct IM as [<-|IM]; [exact FK|apply FW, (firstn_In _ _ _ IM)]).
        split; [exact F1|]. split; [exact F2|]. apply (fin_le_real _ _ FK F2) in LK. split; [lra|].
        destruct (G (e_equity (cb_eqm (snd o)))) as [G0|G0]; [right; apply (nth_error_In _ i); rewrite nth_error_firstn_lt by lia; exact NW|destruct (e_equity (cb_eqm (snd o))); discriminate|]. apply (fin_le_real _ _ F1 F2), G0. }
      split.
      + intros Z i j x y IJ Nx Ny. destruct j as [|j].
        { replace i with 0%nat in Nx by lia. cbn in Nx, Ny. injection Nx as <-. injection Ny as <-. apply fin_le_real; try assumption. lra. }
        cbn [nth_error] in Ny. assert (NO : exists o, nth_error os j = Some o) by (unfold worth in Ny; rewrite nth_error_map in Ny; destruct (nth_error os j); [eauto|discriminate]). destruct NO as [o No].
        destruct (EV j o No) as (_ & (_ & _ & G) & NW). destruct (FT j o No) as (F1 & F2 & P2 & L2). rewrite NW in Ny. injection Ny as <-.
        destruct (drop_sign _ _ F1 F2 P2) as [_ D].
        assert (EQ : B2R (e_equity (cb_eqm (snd o))) = B2R (e_equity_max (cb_eqm (snd o)))).
        { destruct L2 as [L2|L2]; [|exact L2]. exfalso. specialize (D L2). 
          destruct (LO (Bminus mode_NE (Bdiv mode_NE (e_equity (cb_eqm (snd o))) (e_equity_max (cb_eqm (snd o)))) (f64_ofZ 1))) as [Q|Q].
          - right. apply in_map_iff. exists o. split; [reflexivity|eapply nth_error_In; exact No].
          - revert Q D. generalize (Bminus mode_NE (Bdiv mode_NE (e_equity (cb_eqm (snd o))) (e_equity_max (cb_eqm (snd o)))) (f64_ofZ 1)). intros z. destruct z; discriminate.
          - revert Q D Z. generalize (Bminus mode_NE (Bdiv mode_NE (e_equity (cb_eqm (snd o))) (e_equity_max (cb_eqm (snd o)))) (f64_ofZ 1)) (cb_eq_max_dd b). intros z w A1 A2 A3.
            destruct w as [sw|[]| |[]]; try discriminate A3. destruct z as [sz|[]| |[]]; try discriminate A2; destruct sw; discriminate A1. }
        destruct (G x) as [Gx|Gx].
        * destruct i as [|i]; [left; cbn in Nx; injection Nx as ->; reflexivity|]. right. cbn [nth_error] in Nx. apply (nth_error_In _ i). rewrite nth_error_firstn_lt by lia. exact Nx.
        * exfalso. destruct i as [|i]; cbn [nth_error] in Nx; [injection Nx as <-; congruence|]. apply nth_error_In in Nx. apply FW in Nx. destruct x; discriminate.
        * assert (Fx : is_finite x = true) by (destruct i as [|i]; cbn [nth_error] in Nx; [injection Nx as <-; exact FK|apply FW; eapply nth_error_In; exact Nx]).
          apply (fin_le_real _ _ Fx F2) in Gx. apply fin_le_real; try assumption. lra.
      + intros MO. destruct IN as [E|I]; [change (Beqb (cb_eq_max_dd b) zero = true); rewrite <- E; reflexivity|].
        apply in_map_iff in I. destruct I as (o & E & I). apply In_nth_error in I. destruct I as [i No]. destruct (EV i o No) as (_ & (IM & _ & _) & NW). destruct (FT i o No) as (F1 & F2 & P2 & L2).
        destruct (drop_sign _ _ F1 F2 P2) as [D _].
        assert (L3 : B2R (e_equity_max (cb_eqm (snd o))) <= B2R (e_equity (cb_eqm (snd o)))).
        { apply (fin_le_real _ _ F2 F1). destruct IM as [IM|IM].
          - apply (MO 0%nat (S i)); [lia|cbn; f_equal; exact IM|exact NW].
          - apply In_nth_error in IM. destruct IM as [k IM]. assert (KL : (k < S i)%nat).
            { assert (X : (k < List.length (firstn (S i) worth))%nat) by (apply nth_error_Some; congruence). rewrite firstn_length in X. lia. }
            rewrite nth_error_firstn_lt in IM by exact KL. apply (MO (S k) (S i)); [lia|exact IM|exact NW]. }
        rewrite <- E. apply D. lra.
  Qed.

  (** ** The band of a bar. *)
  Lemma shown t (ep f x : f64) : t_entry_price t = Some ep -> t_fill t = Some f -> trade_cur_pnl t x = Ok (profit_at t ep f x).
  Proof. intros A B. unfold trade_cur_pnl. rewrite A, B. cbn [unwrap rbind]. unfold profit_at, trade_pnl. destruct (t_dir t); reflexivity. Qed.
  Theorem C127_band (cfg : sconfig f64) c sigs x os s e t lo hi cl :
    observed equity_step cfg (equity_new (sc_capital cfg)) c (sigs ++ [x]) os -> newest os = Some (s, e) ->
    is_nan (sc_capital cfg) = false ->
    newest (s_trades s) = Some t -> t_closed t = false ->
    let i := (c_index c + List.length sigs)%nat in
    nth_error (p_low (c_data c)) i = Some (Some lo) -> nth_error (p_high (c_data c)) i = Some (Some hi) ->
    nth_error (p_close (c_data c)) i = Some (Some cl) -> fltb cl lo = false -> fltb hi cl = false ->
    fltb (e_equity e) (e_bar_min e) = false /\ fltb (e_bar_max e) (e_equity e) = false.
  Proof.
    intros O N NK NT TC i Hl Hh Hc B1 B2. pose proof (seen _ _ _ _ _ _ _ _ O N) as AF.
    assert (NK1 : fisnan (sc_capital cfg) = false) by exact NK. destruct (C37_extremes cfg c _ os s e NK1 O N) as (EE & EN & _).
    destruct (C37_band cfg c _ os s e t O N NT TC) as (lo' & hi' & ep & f & A1 & A2 & A3 & A4 & A5 & A6).
    rewrite app_length in A1, A2. cbn [List.length] in A1, A2.
    replace (c_index c + (List.length sigs + 1) - 1)%nat with i in A1, A2 by (unfold i; lia).
    rewrite Hl in A1. rewrite Hh in A2. injection A1 as <-. injection A2 as <-.
    destruct (C31_equity cfg c sigs x s AF) as [EQ OP]. rewrite NT, TC in OP.
    destruct OP as (ep' & f' & B3 & B4 & B5). rewrite A3 in B3. rewrite A4 in B4. injection B3 as <-. injection B4 as <-.
    unfold quote in B5. fold i in B5. rewrite Hc in B5.
    assert (I : In t (s_trades s)) by (unfold newest in NT; eapply nth_error_In; exact NT).
    assert (MO : forall u v, fltb v u = false -> match t_dir t with Long => not_above (profit_at t ep f u) (profit_at t ep f v) | Short => not_above (profit_at t ep f v) (profit_at t ep f u) end).
    { intros u v L. destruct (C116_monotone log10 cfg c _ s t u v AF I L) as (p & q & P1 & P2 & M).
      assert (P1' : Ok p = Ok (profit_at t ep f u)) by (rewrite <- (shown t ep f u A3 A4); symmetry; exact P1). assert (P2' : Ok q = Ok (profit_at t ep f v)) by (rewrite <- (shown t ep f v A3 A4); symmetry; exact P2).
      injection P1' as ->. injection P2' as ->. exact M. }
    assert (NE : not_above (e_net e) (fadd (sc_capital cfg) (sm_net (s_metrics s))) /\ not_above (fadd (sc_capital cfg) (sm_net (s_metrics s))) (e_net e)).
    { rewrite EN. destruct (Nat.eqb_spec (sm_closed (s_metrics s)) 0) as [Z|Z]; [|split; apply not_above_refl].
      pose proof (@C30_totals f64 N127 O127 cfg c _ s AF) as T. cbv zeta in T. destruct T as (T1 & T2 & _). rewrite T2 in Z. apply length_zero_iff_nil in Z. rewrite T1, Z.
      change (not_above (sc_capital cfg) (Bplus mode_NE (sc_capital cfg) zero) /\ not_above (Bplus mode_NE (sc_capital cfg) zero) (sc_capital cfg)).
      generalize (sc_capital cfg). intros k. assert (Q : Bplus mode_NE k zero = k \/ k = B754_zero true) by (destruct k as [[]|[]| |[] m z H]; auto).
      destruct Q as [-> | ->]; [split; apply not_above_refl|split; reflexivity]. }
    destruct NE as [NE1 NE2]. rewrite EE, EQ, A5, A6, B5. unfold worst, best_price. specialize (MO lo cl) as M1. specialize (MO cl hi) as M2. specialize (M1 B1). specialize (M2 B2).
    destruct (t_dir t).
    - split; [exact (plus_mono _ _ _ _ NE1 M1)|exact (plus_mono _ _ _ _ NE2 M2)].
    - split; [exact (plus_mono _ _ _ _ NE1 M2)|exact (plus_mono _ _ _ _ NE2 M1)].
  Qed.
End Sums.

(** ** Concrete cases *)
Section Cases127.
  Variable log10 : f64 -> f64.
  #[local] Instance N127c : Num f64 := IEEE log10.
  #[local] Instance O127c : OrdNum f64 := IEEEOrd log10.
  Definition figures (r : res (list (strategy f64 * tvmetrics f64))) : list (nat * nat * nat * bool * bool * bool) :=
    match r with
    | Ok os => map (fun o => let d := tv_data (snd o) in (tv_closed d, tv_winning d, tv_losing d,
        Bltb (f64_ofZ 0) (tv_gross_profit d), Bltb (f64_ofZ 0) (tv_gross_loss d), is_nan (tv_profit_factor d))) os
    | Panic => []
    end.
  (** One winner, one loser; and a feed with an infinite price: both gross figures are infinite and
      the profit factor is NaN. *)
  Definition bars127 : list (bar f64) :=
    map qbar [(10, 12, 9, 11, 100)]%Z ++ [mkBar (Some (q 11)) (Some inf) (Some (q 10)) (Some inf) (Some (q 5))] ++
    [mkBar (Some (q 11)) (Some inf) (Some (q 10)) (Some inf) (Some (q 5))] ++ map qbar [(10, 12, 9, 10, 100); (10, 12, 9, 10, 100)]%Z.
  Definition ctx127 : ctx f64 :=
    mkCtx (mkProvider (map b_open bars127) (map b_high bars127) (map b_low bars127) (map b_close bars127) (map b_volume bars127) (repeat None 5) 0 4) 0 4 5 0 false.
  Definition cfg127 : sconfig f64 := mkSConfig true false (q 1000) false.
  Example C127_ex :
    figures (run (metered tv_step) ctx6 (strategy_new (cfg_of false false false), tv_new (strategy_new (cfg_of false false false)) tv_default_rfr) sig6) =
    [(0, 0, 0, false, false, false); (0, 0, 0, false, false, false); (0, 0, 0, false, false, false); (1, 1, 0, true, false, false); (1, 1, 0, true, false, false); (2, 1, 1, true, true, false)]%nat /\
    figures (run (metered tv_step) ctx127 (strategy_new cfg127, tv_new (strategy_new cfg127) tv_default_rfr) [Some Long; Some Short; Some Long; Some Short; None]) =
    [(0, 0, 0, false, false, false); (1, 1, 0, true, false, false); (1, 1, 0, true, false, false); (2, 1, 1, true, true, true); (2, 1, 1, true, true, true)]%nat.
  Proof. split; vm_compute; reflexivity. Qed.
  (** Equity above 0 and finite throughout; it rises on the first two bars (drawdown 0) and falls on the third. *)
  Definition drops (r : res (list (strategy f64 * cobra f64))) : list (bool * bool * bool) :=
    match r with
    | Ok os => map (fun o => let w := sm_equity (s_metrics (fst o)) in (is_finite w, Bleb (f64_ofZ 0) w, Beqb (cb_eq_max_dd (snd o)) (f64_ofZ 0))) os
    | Panic => []
    end.
  Example C127_drawdown_ex :
    drops (run (metered cobra_step) ctx6 (strategy_new (cfg_of false true true), cobra_new (strategy_new (cfg_of false true true)) false None) sig6) =
    [(true, true, true); (true, true, true); (true, true, false); (true, true, false); (true, true, false); (true, true, false)].
  Proof. vm_compute. reflexivity. Qed.
  (** A bar with low <= close <= high while a trade is open; the band is not a point. *)
  Definition band_view (r : res (list (strategy f64 * equity f64))) : option (bool * bool * bool * bool) :=
    match r with
    | Ok os => match newest os with
      | Some (s, e) => match newest (s_trades s) with
        | Some t => Some (t_closed t, Bltb (e_bar_min e) (e_bar_max e), Bleb (e_bar_min e) (e_equity e), Bleb (e_equity e) (e_bar_max e))
        | None => None
        end
      | None => None
      end
    | Panic => None
    end.
  Example C127_band_ex :
    band_view (run (metered equity_step) ctx6 (strategy_new (cfg_of false true true), equity_new (sc_capital (cfg_of false true true))) [Some Long; None; Some Short]) =
    Some (false, true, true, true) /\
    match nth_error (p_low (c_data ctx6)) 2, nth_error (p_high (c_data ctx6)) 2, nth_error (p_close (c_data ctx6)) 2 with
    | Some (Some lo), Some (Some hi), Some (Some cl) => Bltb cl lo = false /\ Bltb hi cl = false
    | _, _, _ => False
    end.
  Proof. split; [|split]; vm_compute; reflexivity. Qed.
End Cases127.
