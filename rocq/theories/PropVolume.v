(** * PropVolume (C132): volumes in other units. *)
From Coq Require Import Reals Lra Lia Psatz.
From Verif Require Import PTa4 PExact3 Inst PropTa1 PropTa2 PropTa3 SpecBar PropContent1 PropContent2 PropContent3 PropContent4 PropScale.
Local Open Scope R_scope.

(** The same bar with its volume counted in another unit (shares or lots). *)
Definition vbar (k : R) (r : rbar5) : rbar5 := mkRB (ro r) (rh r) (rl r) (rc r) (k * rv r).

Section Volume.
  Variable k : R.
  Hypothesis K : 0 < k.
  Variables (c c' : ctx xr) (rs : list rbar5).
  Hypothesis H : fresh_over c (map bar_of rs).
  Hypothesis H' : fresh_over c' (map bar_of (map (vbar k) rs)).
  Lemma Rsum_k l : Rsum (map (Rmult k) l) = k * Rsum l.
  Proof. induction l as [|x l IH]; cbn [map Rsum]; [ring|]. rewrite IH. ring. Qed.
  (** Chaikin money flow: the same. *)
  Theorem C132_chaikin len : (1 <= len)%nat ->
    exists os, run_new (cmf_new len) cmf_step c (ticks (length rs)) = Ok os /\ run_new (cmf_new len) cmf_step c' (ticks (length rs)) = Ok os.
  Proof.
    intros L. destruct (C54_exact len c rs L H) as (os & E & LO & A). destruct (C54_exact len c' (map (vbar k) rs) L H') as (os' & E' & LO' & A').
    rewrite map_length in E', LO'. exists os. split; [exact E|]. rewrite E'. f_equal. symmetry. apply eq_nth; [lia|].
    intros i x y X Y. specialize (A i x X). specialize (A' i y Y). rewrite firstn_map in A'.
    assert (FW : full_window len (map (vbar k) (firstn (S i) rs)) = option_map (map (vbar k)) (full_window len (firstn (S i) rs))).
    { unfold full_window, lastn. rewrite map_length, skipn_map. destruct (len <=? _)%nat; reflexivity. }
    rewrite FW in A'. destruct (full_window len (firstn (S i) rs)) as [w|]; [|cbn in A'; congruence]. cbn [option_map] in A'.
    assert (V : Rsum (map rv (map (vbar k) w)) = k * Rsum (map rv w)) by (rewrite <- Rsum_k, !map_map; reflexivity).
    assert (FL : Rsum (map Rflow (map (vbar k) w)) = k * Rsum (map Rflow w)).
    { rewrite <- Rsum_k, !map_map. f_equal. apply map_ext. intros r. unfold Rflow. cbn [vbar rh rl rc rv]. destruct (Req_EM_T (rh r) (rl r)); [ring|]. field. lra. }
    rewrite V, FL in A'. destruct A as (A1 & A2 & _), A' as (A1' & A2' & _).
    destruct (Req_dec (Rsum (map rv w)) 0) as [Q|Q].
    - rewrite (A1 Q), A1'; [reflexivity|]. rewrite Q. ring.
    - assert (Q' : k * Rsum (map rv w) <> 0) by (intros Z; apply Rmult_integral in Z; lra). rewrite (A2 Q), (A2' Q'). do 2 f_equal. field. split; [exact Q|lra].
  Qed.
  (** Any average of any length: in the same unit as the volumes. *)
  Lemma ma_scales kind len (m : any_ma) (d : ctx xr) vs : ma_new kind len = Ok m -> c_index d = 0%nat ->
    exists os, run ostep d m (map Some (map Fin vs)) = Ok (lift os) /\ run ostep d m (map Some (map Fin (map (Rmult k) vs))) = Ok (lift (amap k 0 os)).
  Proof.
    intros E Z. rewrite !(ma_boxed _ _ _ _ _ E).
    assert (F1 : map Some (map Fin vs) = lift (map Some vs)) by (unfold lift; rewrite !map_map; reflexivity).
    assert (F2 : map Some (map Fin (map (Rmult k) vs)) = lift (amap k 0 (map Some vs))).
    { unfold lift, amap. rewrite !map_map. apply map_ext. intros v. unfold aff. cbn. do 2 f_equal. ring. }
    assert (G1 : map Some (map Fin vs) = repeat None 0 ++ full vs) by (unfold full; rewrite map_map; reflexivity).
    assert (G2 : map Some (map Fin (map (Rmult k) vs)) = repeat None 0 ++ full (map (aff k 0) vs)).
    { unfold full. rewrite !map_map. apply map_ext. intros v. unfold aff. do 2 f_equal. ring. }
    destruct kind; cbn [ma_new] in E.
    - rewrite !ma_run_sma. destruct len as [|n]; [discriminate|]. rewrite F1, F2. apply C74_sma_moves; [lia|exact Z|exact K].
    - rewrite !ma_run_ema. destruct len as [|n]; [discriminate|]. rewrite G1, G2. apply C74_ema_moves; [lia|exact K].
    - rewrite !ma_run_rma. destruct len as [|n]; [discriminate|]. rewrite G1, G2. apply C74_rma_moves; [lia|exact K].
    - rewrite !ma_run_swma. rewrite F1, F2. apply C74_swma_moves; [exact Z|exact K].
  Qed.
  Lemma ma_same kind len (m : any_ma) (d d' : ctx xr) vs : ma_new kind len = Ok m -> c_index d = 0%nat -> c_index d' = 0%nat ->
    run ostep d m (map Some (map Fin vs)) = run ostep d' m (map Some (map Fin vs)).
  Proof.
    intros E Z Z'. rewrite !(ma_boxed _ _ _ _ _ E).
    assert (F1 : map Some (map Fin vs) = lift (map Some vs)) by (unfold lift; rewrite !map_map; reflexivity).
    assert (G1 : map Some (map Fin vs) = repeat None 0 ++ full vs) by (unfold full; rewrite map_map; reflexivity).
    destruct kind; cbn [ma_new] in E.
    - rewrite !ma_run_sma. destruct len as [|n]; [discriminate|]. rewrite F1, !sma_run_exact by lia. reflexivity.
    - rewrite !ma_run_ema. destruct len as [|n]; [discriminate|]. rewrite G1, !C11_ema_closed_form by lia. reflexivity.
    - rewrite !ma_run_rma. destruct len as [|n]; [discriminate|]. rewrite G1, !C12_rma_closed_form by lia. reflexivity.
    - rewrite !ma_run_swma. rewrite F1, !swma_run_exact by assumption. reflexivity.
  Qed.
  Lemma pd_scales (xs ys : list (option R)) : zip percent_difference_nz (lift (amap k 0 xs)) (lift (amap k 0 ys)) = zip percent_difference_nz (lift xs) (lift ys).
  Proof.
    unfold zip. revert ys. induction xs as [|x xs IH]; intros [|y ys]; cbn; try reflexivity. f_equal; [|apply IH].
    destruct x as [x|], y as [y|]; try reflexivity. cbn [option_map percent_difference_nz]. unfold aff. rewrite !fin_Z, !fin_eq.
    destruct (Reqb_spec (k * y + 0) 0) as [Q|Q], (Reqb_spec y 0) as [Q'|Q']; try reflexivity.
    - exfalso. assert (k * y = 0) by lra. apply Rmult_integral in H0. lra.
    - exfalso. subst y. apply Q. ring.
    - rewrite !fin_sub, !fin_div, !fin_mul by assumption. do 2 f_equal. field. split; lra.
  Qed.
  (** Volume oscillator over any two averages: the same. *)
  Theorem C132_volume_oscillator k1 l1 k2 l2 (a b : any_ma) : ma_new k1 l1 = Ok a -> ma_new k2 l2 = Ok b ->
    exists os, run vo_step c (mkVo a b) (ticks (length rs)) = Ok os /\ run vo_step c' (mkVo a b) (ticks (length rs)) = Ok os.
  Proof.
    intros A B. pose proof (C58_volume c _ a b H) as E. pose proof (C58_volume c' _ a b H') as E'. rewrite !map_length in E, E'.
    assert (V : map b_volume (map bar_of rs) = map Some (map Fin (map rv rs))) by (rewrite !map_map; reflexivity).
    assert (V' : map b_volume (map bar_of (map (vbar k) rs)) = map Some (map Fin (map (Rmult k) (map rv rs)))) by (rewrite !map_map; reflexivity).
    rewrite V in E. rewrite V', map_length in E'.
    rewrite (ma_same k1 l1 a c c' _ A (proj2 H) (proj2 H')), (ma_same k2 l2 b c c' _ B (proj2 H) (proj2 H')) in E.
    destruct (ma_scales k1 l1 a c' (map rv rs) A (proj2 H')) as (p1 & Y1 & Y1'). destruct (ma_scales k2 l2 b c' (map rv rs) B (proj2 H')) as (p2 & Y2 & Y2').
    rewrite Y1, Y2 in E. rewrite Y1', Y2' in E'. cbn [rbind] in E, E'. cbv zeta in E'. rewrite pd_scales in E'. eexists. split; [exact E|exact E'].
  Qed.
  Theorem C132_volume_oscillator_default :
    exists os, run_new vo_default vo_step c (ticks (length rs)) = Ok os /\ run_new vo_default vo_step c' (ticks (length rs)) = Ok os.
  Proof.
    unfold run_new, vo_default. destruct (ma_new EMA 5) as [a|] eqn:A; [|discriminate]. destruct (ma_new EMA 10) as [b|] eqn:B; [|discriminate].
    cbn [rbind]. apply (C132_volume_oscillator _ _ _ _ _ _ A B).
  Qed.
End Volume.

(** Examples: the hypotheses are met by two histories with the same prices and
    volumes a hundred times larger, and on f64 numbers the outputs agree. *)
Example C132_ex_bars :
  exists c c', ctx_over (map bar_of [mkRB 10 12 9 11 100; mkRB 11 14 10 13 120]) = Ok c /\
    ctx_over (map bar_of (map (vbar (1 / 100)) [mkRB 10 12 9 11 100; mkRB 11 14 10 13 120])) = Ok c' /\
    fresh_over c (map bar_of [mkRB 10 12 9 11 100; mkRB 11 14 10 13 120]) /\
    fresh_over c' (map bar_of (map (vbar (1 / 100)) [mkRB 10 12 9 11 100; mkRB 11 14 10 13 120])).
Proof.
  eexists _, _. split; [reflexivity|]. split; [reflexivity|]. split; (split; [repeat split|reflexivity]).
Qed.
Definition lots : list (bar f64) := map qbar [(10, 14, 10, 13, 1); (11, 15, 11, 12, 3); (12, 16, 8, 15, 4)]%Z.
Definition shares : list (bar f64) := map qbar [(10, 14, 10, 13, 100); (11, 15, 11, 12, 300); (12, 16, 8, 15, 400)]%Z.
Example C132_ex :
  gives same_opt (c <- ctx_over lots ;; run_new (cmf_new 2) cmf_step c (ticks 3)) [None; Some (lit (-1) 4); Some (lit 3 14)] = true /\
  gives same_opt (c <- ctx_over shares ;; run_new (cmf_new 2) cmf_step c (ticks 3)) [None; Some (lit (-1) 4); Some (lit 3 14)] = true.
Proof. split; vm_compute; reflexivity. Qed.
