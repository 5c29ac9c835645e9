(** * PropVolF (C132, C125): percentage oscillators of two simple averages,
    bit for bit in f64, when every price or volume is multiplied by [2^k]. *)
From Coq Require Import Reals Lra Lia Psatz.
From Flocq Require Import Core IEEE754.BinarySingleNaN Mult_error.
From Verif Require Import PropWhole.
From Verif Require Import PropContent2 PropContent4.
From Verif Require Import PContent1 PContent2 PContent3 PExact3.
From Verif Require Import Inst PropTick PIeee2 PRound PropDrift PropRatio PropSplit PropSplit2.
Local Open Scope R_scope.

(** The difference of two values that were multiplied by [2^k] exactly. *)
Lemma ex_sub k (x y x' y' : f64) : (0 <= k)%Z -> ex k x x' -> ex k y y' ->
  Rabs (B2R x) * bpow radix2 k <= bpow radix2 1000 -> Rabs (B2R y) * bpow radix2 k <= bpow radix2 1000 ->
  ex k (Bminus mode_NE x y) (Bminus mode_NE x' y').
Proof.
  intros K ([Fx Fx'] & Vx & Sx) ([Fy Fy'] & Vy & Sy) Bx By.
  set (r := B2R x - B2R y).
  assert (E : rn (r * bpow radix2 k) = rn r * bpow radix2 k).
  { apply rn_scale; [exact K|right]. destruct (f64_whole x) as [a A], (f64_whole y) as [b B]. exists (a - b)%Z. unfold r. rewrite A, B, minus_IZR. ring. }
  pose proof (bpow_gt_0 radix2 k) as P. pose proof (one_le_bpow k K) as K1.
  assert (H : Rabs (rn (r * bpow radix2 k)) <= bpow radix2 1001).
  { change fexp64 with (FLT_exp (-1074) 53). apply abs_round_le_generic; auto with typeclass_instances.
    - apply generic_format_bpow. unfold FLT_exp. lia.
    - rewrite Rabs_mult, (Rabs_pos_eq (bpow radix2 k)) by lra. unfold r. pose proof (Rabs_triang (B2R x) (- B2R y)) as T. rewrite Rabs_Ropp in T.
      change (bpow radix2 1001) with (bpow radix2 (1 + 1000)). rewrite bpow_plus. change (bpow radix2 1) with 2. unfold Rminus. nra. }
  assert (H1 : Rabs (rn r) <= bpow radix2 1001) by (rewrite E, Rabs_mult, (Rabs_pos_eq (bpow radix2 k)) in H by lra; pose proof (Rabs_pos (rn r)); nra).
  assert (Top : bpow radix2 1001 < bpow radix2 1024) by (apply bpow_lt; lia).
  pose proof (Bminus_correct 53 1024 _ _ mode_NE x y Fx Fy) as C. rewrite Rlt_bool_true in C by (eapply Rle_lt_trans; [exact H1|exact Top]). destruct C as (C1 & C2 & C3).
  pose proof (Bminus_correct 53 1024 _ _ mode_NE x' y' Fx' Fy') as D. rewrite Vx, Vy, <- Rmult_minus_distr_r, Rcompare_scale, Sx, Sy in D.
  rewrite Rlt_bool_true in D by (eapply Rle_lt_trans; [exact H|exact Top]). destruct D as (D1 & D2 & D3).
  split; [exact (conj C2 D2)|]. split; [|exact (eq_trans D3 (eq_sym C3))].
  refine (eq_trans D1 (eq_trans E _)). exact (f_equal (fun v => v * bpow radix2 k) (eq_sym C1)).
Qed.
(** Dividing by a whole number does not make a value larger. *)
Lemma divz_small (c x : f64) z : is_finite c = true -> B2R c = IZR z -> (1 <= z)%Z -> is_finite x = true ->
  Rabs (B2R (Bdiv mode_NE x c)) <= Rabs (B2R x).
Proof.
  intros Fc Vc Z1 Fx. assert (P : 1 <= IZR z) by (apply IZR_le; lia). assert (C0 : B2R c <> 0) by (rewrite Vc; lra).
  assert (Q : Rabs (rn (B2R x / B2R c)) <= Rabs (B2R x)).
  { change fexp64 with (FLT_exp (-1074) 53). apply abs_round_le_generic; auto with typeclass_instances.
    - apply generic_format_abs. apply (generic_format_B2R 53 1024 x).
    - rewrite Vc. unfold Rdiv. rewrite Rabs_mult, (Rabs_pos_eq (/ IZR z)) by (left; apply Rinv_0_lt_compat; lra).
      assert (/ IZR z <= 1) by (rewrite <- Rinv_1; apply Rinv_le; lra). pose proof (Rabs_pos (B2R x)). rewrite <- (Rmult_1_r (Rabs (B2R x))) at 2. apply Rmult_le_compat_l; assumption. }
  pose proof (Bdiv_correct 53 1024 _ _ mode_NE x c C0) as C. rewrite Rlt_bool_true in C.
  - destruct C as (C1 & _). rewrite C1. exact Q.
  - eapply Rle_lt_trans; [exact Q|]. apply (abs_B2R_lt_emax 53 1024 x).
Qed.

Section VolF.
  Variable log10 : f64 -> f64.
  #[local] Instance N132 : Num f64 := IEEE log10.
  #[local] Instance O132 : OrdNum f64 := IEEEOrd log10.
  Variable k : Z.
  Hypothesis K : (0 <= k)%Z.
  Notation T := (scaled k).

  (** Both missing, or multiplied by [2^k] exactly and not too large. *)
  Definition oex (o o' : option f64) : Prop :=
    match o, o' with Some x, Some y => ex k x y /\ Rabs (B2R x) * bpow radix2 k <= bpow radix2 1000 | None, None => True | _, _ => False end.
  Lemma few_1000 j : few j -> INR j * bpow radix2 900 <= bpow radix2 1000.
  Proof.
    intros H. assert (J : INR j <= bpow radix2 100).
    { rewrite INR_IZR_INZ. apply Rle_trans with (bpow radix2 53); [|apply bpow_le; lia]. change (bpow radix2 53) with (IZR (2 ^ 53)). apply IZR_le, H. }
    change (bpow radix2 1000) with (bpow radix2 (100 + 900)). rewrite bpow_plus. apply Rmult_le_compat_r; [apply bpow_ge_0|exact J].
  Qed.
  Lemma osc_oex j o o' : few j -> osc k j o o' -> oex o o'.
  Proof.
    intros J. destruct o as [x|], o' as [y|]; cbn [osc oex]; auto. intros H. split; [exact (sc_ex k j x y K J H)|].
    destruct H as [(_ & _ & B) _]. exact (Rle_trans _ _ _ B (few_1000 j J)).
  Qed.
  Lemma sma_oex len p : (1 <= len)%nat -> few len -> few (2 * List.length p) -> all_usable k p -> oex (sma_out len p) (sma_out len (T p)).
  Proof.
    intros L LF J U. pose proof (usable_rooms k p U) as H. unfold sma_out. destruct (Nat.eqb_spec len 1) as [_|_].
    - apply (osc_oex 1); [unfold few; cbn; lia|]. exact (osc_newest k 1 p H).
    - rewrite window_mapf. destruct (window len p); cbn [option_map oex]; [|exact I].
      destruct (fnat_64 log10 len LF) as [Fn Vn]. assert (JP : few (2 * 1 * List.length p)) by (apply few_le with (2 := J); lia).
      assert (SC : sc k (2 * 1 * List.length p) (rsum len p) (rsum len (T p))) by (apply (rsum2 log10 k K); assumption).
      split; [apply (sc_divz_ex k (2 * 1 * List.length p) (Z.of_nat len) (fnat len) _ _ K JP Fn Vn); [unfold few in LF; lia|exact SC]|].
      destruct SC as [(Fr & _ & B) _]. apply Rle_trans with (Rabs (B2R (rsum len p)) * bpow radix2 k).
      + apply Rmult_le_compat_r; [apply bpow_ge_0|]. apply (divz_small (fnat len) (rsum len p) (Z.of_nat len) Fn Vn); [lia|exact Fr].
      + exact (Rle_trans _ _ _ B (few_1000 _ JP)).
  Qed.
  Lemma pd_same s s' l l' : oex s s' -> oex l l' -> percent_difference s' l' = percent_difference s l.
  Proof.
    destruct s as [x|], s' as [x'|]; cbn [oex]; try contradiction; destruct l as [y|], l' as [y'|]; cbn [oex]; try contradiction; try reflexivity.
    intros [X Bx] [Y By]. cbn [percent_difference]. do 2 f_equal. apply (ex_ratio k); [|exact Y]. apply ex_sub; assumption.
  Qed.
  Lemma pd_nz_same s s' l l' : oex s s' -> oex l l' -> percent_difference_nz s' l' = percent_difference_nz s l.
  Proof.
    intros A B. pose proof (pd_same _ _ _ _ A B) as P. revert A B P.
    destruct s as [x|], s' as [x'|]; cbn [oex]; try contradiction; destruct l as [y|], l' as [y'|]; cbn [oex]; try contradiction; try reflexivity.
    intros _ [Y _] P. cbn [percent_difference percent_difference_nz] in *. change (@feqb f64 N132) with (@Beqb 53 1024). change (fZ 0) with (f64_ofZ 0). rewrite (ex_eq0 k y y' Y).
    destruct (Beqb y (f64_ofZ 0)); [reflexivity|exact P].
  Qed.
  Lemma zip_prefixes (f : option f64 -> option f64 -> option f64) (a b a' b' : list (option f64) -> option f64) xs :
    (forall p, In p (prefixes xs) -> f (a' (T p)) (b' (T p)) = f (a p) (b p)) ->
    zip f (each_prefix a' (T xs)) (each_prefix b' (T xs)) = zip f (each_prefix a xs) (each_prefix b xs).
  Proof.
    intros H. rewrite !each_prefix_of_map. unfold each_prefix, zip. revert H. generalize (prefixes xs). intros ps. induction ps as [|p ps IH]; intros H; [reflexivity|].
    cbn. rewrite (H p (or_introl eq_refl)). f_equal. apply IH. intros q I. apply H. right. exact I.
  Qed.
  Lemma prefix_usable xs p : all_usable k xs -> In p (prefixes xs) -> all_usable k p.
  Proof. intros U Ip x I. apply in_prefixes in Ip. destruct Ip as (n & _ & ->). apply U, (firstn_In _ _ _ I). Qed.

  (** Price oscillator over two simple averages of any two lengths. *)
  Theorem C125_price_oscillator n (c c' : ctx f64) src src' l1 l2 (s l : any_ma) xs :
    run ostep c src (ticks n) = Ok xs -> run ostep c' src' (ticks n) = Ok (T xs) ->
    ma_new SMA l1 = Ok s -> ma_new SMA l2 = Ok l -> few l1 -> few l2 -> few (2 * List.length xs) -> all_usable k xs ->
    exists os, run po_step c (mkPo src s l) (ticks n) = Ok os /\ run po_step c' (mkPo src' s l) (ticks n) = Ok os.
  Proof.
    intros X X' A B L1 L2 J U. rewrite !C58_price, X, X'. cbn [rbind]. rewrite !(ma_boxed _ _ _ _ _ A), !(ma_boxed _ _ _ _ _ B), !ma_run_sma.
    cbn [ma_new] in A, B. destruct l1 as [|l1]; [discriminate|]. destruct l2 as [|l2]; [discriminate|].
    rewrite !sma_run by lia. cbn [rbind]. eexists. split; [reflexivity|]. f_equal. apply zip_prefixes. intros p Ip.
    pose proof (prefix_len _ _ Ip). assert (few (2 * List.length p)) by (apply few_le with (2 := J); lia).
    apply pd_same; apply sma_oex; try assumption; try lia; exact (prefix_usable _ _ U Ip).
  Qed.
  (** Volume oscillator over two simple averages of any two lengths. *)
  Theorem C132_volume_oscillator_f64 (c c' : ctx f64) bs bs' l1 l2 (s l : any_ma) : fresh_over c bs -> fresh_over c' bs' -> map b_volume bs' = T (map b_volume bs) ->
    ma_new SMA l1 = Ok s -> ma_new SMA l2 = Ok l -> few l1 -> few l2 -> few (2 * List.length bs) -> all_usable k (map b_volume bs) ->
    exists os, run vo_step c (mkVo s l) (ticks (List.length bs)) = Ok os /\ run vo_step c' (mkVo s l) (ticks (List.length bs)) = Ok os.
  Proof.
    intros H H' V A B L1 L2 J U. pose proof (C58_volume c bs s l H) as E. pose proof (C58_volume c' bs' s l H') as E'. rewrite V in E'.
    assert (LE : List.length bs' = List.length bs) by (apply (f_equal (@List.length _)) in V; rewrite !map_length in V; exact V). rewrite LE in E'.
    rewrite !(ma_boxed _ _ _ _ _ A), !(ma_boxed _ _ _ _ _ B), !ma_run_sma in E. rewrite !(ma_boxed _ _ _ _ _ A), !(ma_boxed _ _ _ _ _ B), !ma_run_sma in E'.
    cbn [ma_new] in A, B. destruct l1 as [|l1]; [discriminate|]. destruct l2 as [|l2]; [discriminate|].
    rewrite !sma_run in E, E' by lia. cbn [rbind] in E, E'. eexists. split; [exact E|]. rewrite E'. f_equal. apply zip_prefixes. intros p Ip.
    pose proof (prefix_len _ _ Ip) as PL. rewrite map_length in PL. assert (few (2 * List.length p)) by (apply few_le with (2 := J); lia).
    apply pd_nz_same; apply sma_oex; try assumption; try lia; exact (prefix_usable _ _ U Ip).
  Qed.
End VolF.

Definition lots3 : list (bar f64) := map qbar [(10, 14, 10, 13, 1); (11, 15, 11, 12, 3); (12, 16, 8, 15, 4)]%Z.
(** Example: bars whose volumes are counted in a unit eight times smaller meet
    the hypotheses; computed, the outputs agree and are values. *)
Definition eightfold (b : bar f64) : bar f64 := mkBar (b_open b) (b_high b) (b_low b) (b_close b) (option_map (times2 3) (b_volume b)).
Example C132_f64_ex : exists c c' s l, ctx_over lots3 = Ok c /\ ctx_over (map eightfold lots3) = Ok c' /\ fresh_over c lots3 /\ fresh_over c' (map eightfold lots3) /\
  map b_volume (map eightfold lots3) = scaled 3 (map b_volume lots3) /\ all_usable 3 (map b_volume lots3) /\ few (2 * List.length lots3) /\
  ma_new SMA 1 = Ok s /\ ma_new SMA 2 = Ok l.
Proof.
  eexists _, _, _, _. split; [reflexivity|]. split; [reflexivity|]. split; [split; [repeat split|reflexivity]|]. split; [split; [repeat split|reflexivity]|].
  split; [reflexivity|]. split; [apply all_usable_test; vm_compute; reflexivity|]. split; [unfold few; cbn; lia|]. split; reflexivity.
Qed.
Example C132_f64_run :
  gives same_opt (c <- ctx_over lots3 ;; s <- ma_new SMA 1 ;; l <- ma_new SMA 2 ;; run vo_step c (mkVo s l) (ticks 3)) [None; Some (q 50); Some (lit 1 2 / lit 7 2 * q 100)%num] = true /\
  gives same_opt (c <- ctx_over (map eightfold lots3) ;; s <- ma_new SMA 1 ;; l <- ma_new SMA 2 ;; run vo_step c (mkVo s l) (ticks 3)) [None; Some (q 50); Some (lit 1 2 / lit 7 2 * q 100)%num] = true.
Proof. split; vm_compute; reflexivity. Qed.
