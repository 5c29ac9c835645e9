(** * PropOsc2 (C125): the average true range, the awesome oscillator and the
    MACD line, bit for bit in f64 when every price is multiplied by [2^k]. *)
From Coq Require Import Reals Lra Lia Psatz.
From Flocq Require Import Core IEEE754.BinarySingleNaN Mult_error.
From Verif Require Import PropWhole.
From Verif Require Import PropContent2 PropContent4 PropTa3.
From Verif Require Import PContent1 PContent2 PContent3 PExact3.
From Verif Require Import Inst PropTick PIeee2 PRound PropRound PropDrift PropRatio PropSplit PropSplit2 PropVolume PropVolF PropEma2.
Local Open Scope R_scope.

(** Multiplied exactly by [2^k], at most [2^e] after. *)
Definition upto (k e : Z) (o o' : option f64) : Prop :=
  match o, o' with Some x, Some y => ex k x y /\ Rabs (B2R x) * bpow radix2 k <= bpow radix2 e | None, None => True | _, _ => False end.
Lemma sub_upto k e (x y x' y' : f64) : (0 <= k)%Z -> (-1000 <= e <= 1000)%Z -> upto k e (Some x) (Some x') -> upto k e (Some y) (Some y') ->
  upto k (e + 1) (Some (Bminus mode_NE x y)) (Some (Bminus mode_NE x' y')).
Proof.
  intros K E [X Bx] [Y By].
  assert (TE : bpow radix2 e <= bpow radix2 1000) by (apply bpow_le; lia).
  assert (Q := ex_sub k x y x' y' K X Y (Rle_trans _ _ _ Bx TE) (Rle_trans _ _ _ By TE)). split; [exact Q|].
  destruct Q as (_ & V & _). pose proof (bpow_gt_0 radix2 k) as P.
  apply Rle_trans with (Rabs (B2R (Bminus mode_NE x' y'))); [rewrite V, Rabs_mult, (Rabs_pos_eq (bpow radix2 k)) by lra; apply Rle_refl|].
  destruct X as ([Fx Fx'] & Vx & _), Y as ([Fy Fy'] & Vy & _).
  assert (H : Rabs (rn (B2R x' - B2R y')) <= bpow radix2 (e + 1)).
  { apply Rabs_le. assert (B : Rabs (B2R x' - B2R y') <= bpow radix2 (e + 1)).
    { rewrite Vx, Vy, bpow_plus. change (bpow radix2 1) with 2. rewrite <- Rmult_minus_distr_r, Rabs_mult, (Rabs_pos_eq (bpow radix2 k)) by lra.
      pose proof (Rabs_triang (B2R x) (- B2R y)) as T. rewrite Rabs_Ropp in T. unfold Rminus. nra. }
    apply Rabs_le_inv in B. split; [apply rn_low; [apply generic_format_opp, fmt_bpow; lia|apply B]|apply rn_high; [apply fmt_bpow; lia|apply B]]. }
  pose proof (Bminus_correct 53 1024 _ _ mode_NE x' y' Fx' Fy') as D. rewrite Rlt_bool_true in D.
  - destruct D as (D1 & _). rewrite D1. exact H.
  - eapply Rle_lt_trans; [exact H|]. apply bpow_lt. lia.
Qed.

Section Osc2.
  Variable log10 : f64 -> f64.
  #[local] Instance N125o : Num f64 := IEEE log10.
  #[local] Instance O125o : OrdNum f64 := IEEEOrd log10.
  Variable k : Z.
  Hypothesis K : (0 <= k)%Z.
  Notation T := (scaled k).

  Lemma minus_upto e a a' b b' : (-1000 <= e <= 1000)%Z -> upto k e a a' -> upto k e b b' -> upto k (e + 1) (minus a b) (minus a' b').
  Proof.
    intros E A B. destruct a as [x|], a' as [x'|]; cbn [upto] in A; try contradiction; [|exact I].
    destruct b as [y|], b' as [y'|]; cbn [upto] in B; try contradiction; [|exact I]. cbn [minus]. exact (sub_upto k e x y x' y' K E A B).
  Qed.
  Lemma zip_upto e os os' ps ps' : (-1000 <= e <= 1000)%Z -> Forall2 (upto k e) os os' -> Forall2 (upto k e) ps ps' ->
    Forall2 (upto k (e + 1)) (zip minus os ps) (zip minus os' ps').
  Proof.
    intros E A. revert ps ps'. induction A as [|a a' os os' Ha A IH]; intros ps ps' B; [constructor|]. inversion B as [|b b' ps0 ps0' Hb Bs]; subst; [constructor|].
    unfold zip. cbn [combine map fst snd]. constructor; [apply minus_upto; assumption|apply IH, Bs].
  Qed.
  Lemma upto_T e os os' : Forall2 (upto k e) os os' -> os' = T os.
  Proof.
    induction 1 as [|a a' os os' H F IH]; [reflexivity|]. cbn [map]. rewrite IH. f_equal. destruct a as [x|], a' as [y|]; cbn [upto] in H; try contradiction; [|reflexivity].
    cbn [option_map]. f_equal. apply ex_times2; [exact K|apply H].
  Qed.
  Lemma upto_le e f o o' : (e <= f)%Z -> upto k e o o' -> upto k f o o'.
  Proof. intros L. destruct o as [x|], o' as [y|]; cbn [upto]; auto. intros [A B]. split; [exact A|]. apply (Rle_trans _ _ _ B). apply bpow_le, L. Qed.
  Lemma upto_all_le e f os os' : (e <= f)%Z -> Forall2 (upto k e) os os' -> Forall2 (upto k f) os os'.
  Proof. intros L. induction 1; constructor; [apply (upto_le e f); assumption|assumption]. Qed.
  Lemma ma_upto kind len (m : any_ma) (c c' : ctx f64) j vs : kind <> SWMA -> ma_new kind len = Ok m -> (Z.of_nat len <= 2 ^ 32)%Z -> few (2 * (j + List.length vs)) -> Forall (ordinary k) vs ->
    exists os os', run ostep c m (warm j vs) = Ok os /\ run ostep c' m (T (warm j vs)) = Ok os' /\ Forall2 (upto k 980) os os'.
  Proof. intros NK E L J H. exact (ma2 log10 k K kind len m c c' j vs NK E L J H). Qed.

  (** Awesome oscillator over any two averages but the symmetrically weighted. *)
  Theorem C125_awesome n (c c' : ctx f64) s1 s1' s2 s2' k1 l1 k2 l2 (s l : any_ma) j1 vs1 j2 vs2 :
    run ostep c s1 (ticks n) = Ok (warm j1 vs1) -> run ostep c' s1' (ticks n) = Ok (T (warm j1 vs1)) ->
    run ostep c s2 (ticks n) = Ok (warm j2 vs2) -> run ostep c' s2' (ticks n) = Ok (T (warm j2 vs2)) ->
    ma_new k1 l1 = Ok s -> ma_new k2 l2 = Ok l -> k1 <> SWMA -> k2 <> SWMA -> (Z.of_nat l1 <= 2 ^ 32)%Z -> (Z.of_nat l2 <= 2 ^ 32)%Z -> few (2 * (j1 + List.length vs1)) -> few (2 * (j2 + List.length vs2)) ->
    Forall (ordinary k) vs1 -> Forall (ordinary k) vs2 ->
    exists os, run ao_step c (ao_new s1 s2 s l) (ticks n) = Ok os /\ run ao_step c' (ao_new s1' s2' s l) (ticks n) = Ok (T os).
  Proof.
    intros X X' Y Y' A B N1 N2 L1 L2 J1 J2 H1 H2. rewrite !C58_awesome, X, X', Y, Y'. cbn [rbind].
    destruct (ma_upto k1 l1 s c c' j1 vs1 N1 A L1 J1 H1) as (o1 & o1' & E1 & E1' & Q1). destruct (ma_upto k2 l2 l c c' j2 vs2 N2 B L2 J2 H2) as (o2 & o2' & E2 & E2' & Q2).
    rewrite E1, E2, E1', E2'. cbn [rbind]. cbv zeta. eexists. split; [reflexivity|]. f_equal.
    assert (Q := zip_upto 980 _ _ _ _ ltac:(lia) Q1 Q2). apply (upto_T (980 + 1 + 1)). apply zip_upto; [lia|exact Q|]. constructor; [exact I|exact Q].
  Qed.
  (** The MACD line, whatever average draws the signal line. *)
  Theorem C125_macd_line n (c c' : ctx f64) s1 s1' s2 s2' k1 l1 k2 l2 (s l sig sig' : any_ma) j1 vs1 j2 vs2 os os' :
    run ostep c s1 (ticks n) = Ok (warm j1 vs1) -> run ostep c' s1' (ticks n) = Ok (T (warm j1 vs1)) ->
    run ostep c s2 (ticks n) = Ok (warm j2 vs2) -> run ostep c' s2' (ticks n) = Ok (T (warm j2 vs2)) ->
    ma_new k1 l1 = Ok s -> ma_new k2 l2 = Ok l -> k1 <> SWMA -> k2 <> SWMA -> (Z.of_nat l1 <= 2 ^ 32)%Z -> (Z.of_nat l2 <= 2 ^ 32)%Z -> few (2 * (j1 + List.length vs1)) -> few (2 * (j2 + List.length vs2)) ->
    Forall (ordinary k) vs1 -> Forall (ordinary k) vs2 ->
    run macd_step c (mkMacd s1 s2 s l sig) (ticks n) = Ok os -> run macd_step c' (mkMacd s1' s2' s l sig') (ticks n) = Ok os' -> map fst os' = T (map fst os).
  Proof.
    intros X X' Y Y' A B N1 N2 L1 L2 J1 J2 H1 H2. rewrite !C58_macd, X, X', Y, Y'. cbn [rbind].
    destruct (ma_upto k1 l1 s c c' j1 vs1 N1 A L1 J1 H1) as (o1 & o1' & E1 & E1' & Q1). destruct (ma_upto k2 l2 l c c' j2 vs2 N2 B L2 J2 H2) as (o2 & o2' & E2 & E2' & Q2).
    rewrite E1, E2, E1', E2'. cbn [rbind]. assert (Q := zip_upto 980 _ _ _ _ ltac:(lia) Q1 Q2).
    assert (FC : forall (a : list (option f64)) (b : list (option f64)), List.length b = List.length a -> map fst (combine a b) = a).
    { induction a as [|x a IH]; intros [|y b] LE; try discriminate; [reflexivity|]. cbn in LE |- *. rewrite IH by lia. reflexivity. }
    destruct (run ostep c sig _) as [g|] eqn:G; [|discriminate]. destruct (run ostep c' sig' _) as [g'|] eqn:G'; [|discriminate]. cbn [rbind].
    intros W W'. assert (Z : os = combine (zip minus o1 o2) g) by congruence. assert (Z' : os' = combine (zip minus o1' o2') g') by congruence. subst os os'.
    rewrite !FC by (symmetry; first [exact (eq_sym (run_length _ _ _ _ _ G)) | exact (eq_sym (run_length _ _ _ _ _ G'))]). exact (upto_T (980 + 1) _ _ Q).
  Qed.
  (** Average true range, when no true range is zero. *)
  Theorem C125_atr len (c c' : ctx f64) bs vs : (1 <= len)%nat -> (Z.of_nat len <= 2 ^ 32)%Z -> fresh_over c bs -> fresh_over c' (map (split_bar k) bs) ->
    Forall (usable_bar k) bs -> Forall has_hl bs -> run tr_step c true (ticks (List.length bs)) = Ok (map Some vs) -> Forall (ordinary k) vs ->
    exists os, run_new (atr_new len) atr_step c (ticks (List.length bs)) = Ok os /\ run_new (atr_new len) atr_step c' (ticks (List.length bs)) = Ok (T os).
  Proof.
    intros L L' H H' U D R O.
    destruct (C125_tr log10 k K c c' bs H H' U true D) as (trs & E & E').
    assert (Z : trs = map Some vs). { assert (ZZ : Ok (map Some vs) = Ok trs) by (etransitivity; [symmetry; exact R|exact E]). congruence. } subst trs.
    destruct (C24_atr len c bs L H D) as (t1 & os & A1 & A2 & A3).
    assert (Z1 : t1 = map Some vs). { assert (ZZ : Ok t1 = Ok (map Some vs)) by (etransitivity; [symmetry; exact A1|exact R]). congruence. } subst t1.
    assert (D' : Forall has_hl (map (split_bar k) bs)) by (apply split_hl; exact D).
    destruct (C24_atr len c' (map (split_bar k) bs) L H' D') as (t2 & os' & B1 & B2 & B3). rewrite map_length in B1, B3.
    assert (Z2 : t2 = T (map Some vs)). { assert (ZZ : Ok t2 = Ok (T (map Some vs))) by (etransitivity; [symmetry; exact B1|exact E']). congruence. } subst t2.
    destruct (C125_rma log10 k K len c 0 vs L L' O) as (ps & P1 & P2).
    assert (Z3 : ps = os). { assert (ZZ : Ok ps = Ok os) by (etransitivity; [symmetry; exact P1|exact A2]). congruence. } subst ps.
    assert (Z4 : os' = T os). { assert (ZZ : Ok os' = Ok (T os)) by (etransitivity; [symmetry; exact B2|rewrite <- P2; etransitivity; [exact (rma_run len c' _ L)|symmetry; exact (rma_run len c _ L)]]). congruence. } subst os'.
    exists os. split; [exact A3|exact B3].
  Qed.
End Osc2.

(** The hypotheses of [C125_atr] are met: eleven bars, no true range zero. *)
Lemma all_ordinary (os : list (option f64)) : forallb (fun o => match o with Some x => is_finite x && Bleb (f64_ofZ 1) x && Bleb x (f64_ofZ (2 ^ 40)) | None => false end) os = true ->
  exists vs, os = map Some vs /\ Forall (ordinary 3) vs.
Proof.
  induction os as [|[x|] os IH]; intros H; [exists []; split; [reflexivity|constructor]| |discriminate].
  cbn [forallb] in H. apply andb_prop in H. destruct H as [A B]. destruct (IH B) as (vs & -> & V). exists (x :: vs). split; [reflexivity|]. constructor; [apply ordinary_test, A|exact V].
Qed.
Definition tr_test (r : res (list (option f64))) : bool :=
  match r with Ok os => forallb (fun o => match o with Some x => is_finite x && Bleb (f64_ofZ 1) x && Bleb x (f64_ofZ (2 ^ 40)) | None => false end) os | Panic => false end.
Example C125_atr_ex : exists c c' vs, fresh_over c (barsv vals10) /\ fresh_over c' (map (split_bar 3) (barsv vals10)) /\
  Forall (usable_bar 3) (barsv vals10) /\ Forall has_hl (barsv vals10) /\ run tr_step c true (ticks 11) = Ok (map Some vs) /\ Forall (ordinary 3) vs /\ List.length vs = 11%nat.
Proof.
  assert (Q : forall z, (z = 9 \/ z = 10 \/ z = 11 \/ z = 12)%Z -> usable 3 (q z)).
  { intros z [-> | [-> | [-> | ->]]]; apply ordinary_usable, ordinary_test; vm_compute; reflexivity. }
  assert (TT : tr_test (c <- ctx_over (barsv vals10) ;; run tr_step c true (ticks 11)) = true) by (vm_compute; reflexivity).
  destruct (ctx_over (barsv vals10)) as [c|] eqn:C; [|discriminate TT]. destruct (ctx_over (map (split_bar 3) (barsv vals10))) as [c'|] eqn:C'; [|discriminate C'].
  assert (FR : fresh_over c (barsv vals10)) by (clear TT; injection C as C; subst c; repeat split).
  assert (FR' : fresh_over c' (map (split_bar 3) (barsv vals10))) by (injection C' as C'; subst c'; repeat split).
  cbn [rbind] in TT. destruct (run tr_step c true (ticks 11)) as [os|] eqn:RT; [|discriminate TT]. cbn [tr_test] in TT. destruct (all_ordinary os TT) as (vs & -> & V).
  exists c, c', vs. split; [exact FR|]. split; [exact FR'|].
  split; [|split; [|split; [exact RT|split; [exact V|]]]].
  - unfold barsv. apply Forall_forall. intros b I. apply in_map_iff in I. destruct I as (v & <- & _). intros x I. cbn [b_open b_high b_low b_close In] in I.
    destruct I as [I|[I|[I|[I|[]]]]];
      [assert (Z : x = q 10) by congruence|assert (Z : x = q 12) by congruence|assert (Z : x = q 9) by congruence|assert (Z : x = q 11) by congruence]; rewrite Z; apply Q; tauto.
  - unfold barsv. apply Forall_forall. intros b I. apply in_map_iff in I. destruct I as (v & <- & _). split; discriminate.
  - apply run_length in RT. rewrite map_length in RT. exact RT.
Qed.
