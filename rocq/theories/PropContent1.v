(** * PropContent1: C46 (range), C47-C53. *)
From Flocq Require Import Core IEEE754.BinarySingleNaN.
From Verif Require Import PTa4 PExact2 PIeee PContent3 SpecBar Inst PropTa2 PropTa3.

(** ** C46: the averaged sources lie between low and high *)
Section C46x.
  Open Scope R_scope.
  Theorem C46_between k (c : ctx xr) rs os i r v : fresh_over c (map bar_of rs) -> k = SHL2 \/ k = SHLC3 \/ k = SOHLC4 ->
    run (src_step k) c tt (ticks (length rs)) = Ok os -> nth_error rs i = Some r -> consistent r ->
    nth_error os i = Some v -> exists x, v = Some (Fin x) /\ rl r <= x <= rh r.
  Proof.
    intros H K R N C V.
    assert (D : Forall (src_ok k) (map bar_of rs)).
    { apply Forall_forall. intros b Hb. apply in_map_iff in Hb. destruct Hb as (r0 & <- & _).
      destruct K as [->|[->| ->]]; cbn; discriminate. }
    pose proof (src_run k c _ H D) as E. rewrite map_length in E. rewrite E in R. injection R as <-.
    rewrite map_map, nth_error_map, N in V. cbn [option_map] in V. injection V as <-.
    destruct C as [C1 C2].
    destruct K as [->|[->| ->]]; cbn [src_of bar_of b_open b_high b_low b_close]; unfold hl2, hlc3, ohlc4;
      rewrite !fin_add, fin_Z, fin_div by lra; (eexists; split; [reflexivity|]); cbn in *; lra.
  Qed.
End C46x.

(** ** C47 *)
Section C47.
  Context {F : Type} {NF : Num F} {OF : OrdNum F}.
  Local Open Scope num_scope.
  (** (length - k) / length * 100, as computed. *)
  Definition aroon_of (len k : nat) : F := (fZ (- Z.of_nat k) + fnat len) / fnat len * fZ 100.
  (** On complete data without NaN: [ku]/[kd] bars have passed since the
      earliest greatest high / least low of the window. *)
  Theorem C47_aroon len (c : ctx F) bs : (1 <= len)%nat -> (Z.of_nat len <= 2 ^ 31)%Z -> fresh_over c bs ->
    Forall has_hl bs -> no_nan (present (map b_high bs)) -> no_nan (present (map b_low bs)) ->
    exists os, run_new (aroon_new len) aroon_step c (ticks (length bs)) = Ok os /\ length os = length bs /\
    forall i o, nth_error os i = Some o ->
      let wh := lastn len (firstn (S i) (map b_high bs)) in
      let wl := lastn len (firstn (S i) (map b_low bs)) in
      if (S i <? len)%nat then o = (None, None)
      else exists ku kd, (ku < len)%nat /\ (kd < len)%nat /\ o = (Some (aroon_of len ku), Some (aroon_of len kd)) /\
           first_max wh (len - 1 - ku) /\ first_min wl (len - 1 - kd).
  Proof.
    intros L B H D NH NL. exists (each_prefix (aroon_out len) bs). split; [apply aroon_run; assumption|].
    split; [apply length_each_prefix|]. intros i o Ho. apply nth_each in Ho. destruct Ho as [Li ->]. cbn zeta.
    pose proof (bars_out_spec (fun v m : F => m <? v) len (map b_high (firstn (S i) bs)) first_max L find_max_ok) as S1.
    pose proof (bars_out_spec (fun v m : F => v <? m) len (map b_low (firstn (S i) bs)) first_min L find_min_ok) as S2.
    rewrite !firstn_map.
    assert (G1 : forall w j, first_max (F:=F) w j -> (j < length w)%nat) by (intros w j (m & E & _); apply nth_error_Some; congruence).
    assert (G2 : forall w j, first_min (F:=F) w j -> (j < length w)%nat) by (intros w j (m & E & _); apply nth_error_Some; congruence).
    assert (PN : forall k : bar F -> option F, no_nan (present (map k bs)) -> no_nan (present (map k (firstn (S i) bs)))).
    { intros k. rewrite <- (firstn_skipn (S i) bs) at 1. rewrite map_app, PExact.present_app'. unfold no_nan. intros Q. apply Forall_app in Q. apply Q. }
    specialize (S1 G1 (PN _ NH)). specialize (S2 G2 (PN _ NL)).
    assert (PR : forall k : bar F -> option F, (forall b, has_hl b -> k b <> None) -> (len <= S i)%nat ->
               present (lastn len (map k (firstn (S i) bs))) <> []).
    { intros k HK LL Q. apply present_nil in Q. rewrite Forall_forall in Q.
      assert (NE : lastn len (map k (firstn (S i) bs)) <> []).
      { intros Z. apply (f_equal (@length _)) in Z. rewrite length_lastn, map_length, firstn_length in Z. change (length (@nil (option F))) with 0%nat in Z. clear - Z Li L LL. destruct (Nat.min_spec (S i) (length bs)); destruct (Nat.min_spec len (Nat.min (S i) (length bs))); lia. }
      destruct (lastn len (map k (firstn (S i) bs))) as [|u t] eqn:EL; [congruence|].
      specialize (Q u (or_introl eq_refl)). subst u.
      assert (IN : In None (map k (firstn (S i) bs))) by (apply (lastn_In len); rewrite EL; left; reflexivity).
      apply in_map_iff in IN. destruct IN as (b & Eb & IN). rewrite Forall_forall in D. apply (HK b (D b (firstn_In _ _ _ IN)) Eb). }
    rewrite map_length, firstn_length, Nat.min_l in S1, S2 by lia. unfold aroon_out.
    destruct (Nat.ltb_spec (S i) len) as [Q|Q].
    - rewrite S1, S2. reflexivity.
    - destruct S1 as (ku & K1 & E1 & X1). destruct S2 as (kd & K2 & E2 & X2). exists ku, kd.
      rewrite E1, E2. split; [exact K1|]. split; [exact K2|]. split; [reflexivity|].
      split; [apply X1, PR; [intros b [? ?]; assumption|exact Q]|apply X2, PR; [intros b [? ?]; assumption|exact Q]].
  Qed.
  (** [ku = 0] exactly when the current bar's high is above all the earlier
      highs of the window. *)
  Theorem C47_zero_age len (w : list (option F)) k x : length w = len -> (k < len)%nat -> first_max w (len - 1 - k) ->
    newest w = Some (Some x) ->
    (k = 0%nat <-> forall j v, (j < len - 1)%nat -> nth_error w j = Some (Some v) -> (v <? x) = true).
  Proof.
    intros L K (m & E & G1 & G2) N. unfold newest in N. rewrite L in N. split.
    - intros ->. rewrite Nat.sub_0_r in E, G2. rewrite E in N. injection N as <-. intros j v J V. apply (G2 j); assumption.
    - intros A. destruct k as [|k]; [reflexivity|exfalso].
      specialize (A (len - 1 - S k)%nat m ltac:(lia) E). specialize (G1 _ _ N).
      apply le_not_lt in G1. congruence.
  Qed.
End C47.
Section C47x.
  Open Scope R_scope.
  Theorem C47_value_exact len k : (1 <= len)%nat -> (k < len)%nat ->
    (aroon_of len k : xr) = Fin (100 * (INR len - INR k) / INR len) /\
    0 < 100 * (INR len - INR k) / INR len <= 100 /\ (100 * (INR len - INR k) / INR len = 100 <-> k = 0%nat).
  Proof.
    intros L K. pose proof (PExact.INR_pos len L) as P. apply lt_INR in K. pose proof (pos_INR k) as P0.
    assert (P1 : 0 < / INR len) by (apply Rinv_0_lt_compat; exact P).
    assert (E : 100 * (INR len - INR k) / INR len = 100 - 100 * INR k * / INR len) by (field; lra).
    split; [|split].
    - unfold aroon_of. rewrite fin_Z, fin_nat, fin_add, fin_div, fin_Z, fin_mul by lra. f_equal.
      rewrite opp_IZR, <- INR_IZR_INZ. field. lra.
    - split; [unfold Rdiv; apply Rmult_lt_0_compat; [lra|exact P1]|]. rewrite E.
      assert (0 <= 100 * INR k * / INR len) by (apply Rmult_le_pos; [lra|lra]). lra.
    - rewrite E. split.
      + intros Q. assert (Z : 100 * INR k * / INR len = 0) by lra. destruct k; [reflexivity|exfalso].
        assert (0 < INR (S k)) by (apply lt_0_INR; lia).
        assert (0 < 100 * INR (S k) * / INR len) by (apply Rmult_lt_0_compat; [lra|exact P1]). lra.
      + intros ->. cbn [INR]. lra.
  Qed.
End C47x.
(** In f64: between 0 (exclusive) and 100, and 100 only for age 0. *)
Section C47i.
  Variable log10 : f64 -> f64.
  #[local] Instance N47 : Num f64 := IEEE log10.
  Open Scope R_scope.
  (** one spelling for all integer constants *)
  Ltac n64 := cbv [NF64 N47 fZ fnat] in *.
  (** 1 - 2^-31, 100 - 2^-25 and 2^-32, exactly. *)
  Definition below1 : f64 := @B754_finite 53 1024 false 9007199250546688 (-53) eq_refl.
  Definition below100 : f64 := @B754_finite 53 1024 false 7036874415669248 (-46) eq_refl.
  Definition tiny32 : f64 := @B754_finite 53 1024 false 4503599627370496 (-84) eq_refl.
  Lemma tiny32_val : B2R tiny32 = / 4294967296.
  Proof. unfold tiny32, B2R, F2R; cbn -[IZR bpow]. unfold bpow. cbn -[IZR]. change (Z.pow_pos 2 84) with 19342813113834066795298816%Z. lra. Qed.
  Lemma below1_val : B2R below1 = 1 - / 2147483648.
  Proof. unfold below1, B2R, F2R; cbn -[IZR bpow]. unfold bpow. cbn -[IZR]. change (Z.pow_pos 2 53) with 9007199254740992%Z. lra. Qed.
  Lemma below100_val : B2R below100 = 100 - / 33554432.
  Proof. unfold below100, B2R, F2R; cbn -[IZR bpow]. unfold bpow. cbn -[IZR]. change (Z.pow_pos 2 46) with 70368744177664%Z. lra. Qed.
  Lemma of_nat_int k len : (k < len)%nat -> (Z.of_nat len <= 2 ^ 31)%Z ->
    exists z : f64, (@fadd f64 (IEEE log10) (@fZ f64 (IEEE log10) (- Z.of_nat k)) (@fnat f64 (IEEE log10) len)) = z /\
      is_finite z = true /\ B2R z = IZR (Z.of_nat len - Z.of_nat k).
  Proof.
    intros K B. eexists; split; [reflexivity|].
    destruct (fin_fZ log10 (- Z.of_nat k)) as [F1 V1]; [lia|]. destruct (fin_fZ log10 (Z.of_nat len)) as [F2 V2]; [lia|].
    destruct (fin_fZ log10 (Z.of_nat len - Z.of_nat k)) as [F3 V3]; [lia|].
    destruct (plus_within log10 (@fZ f64 (IEEE log10) (Z.of_nat len - Z.of_nat k)) (@fZ f64 (IEEE log10) (Z.of_nat len - Z.of_nat k)) _ _ F1 F2) as [F4 V4].
    { n64; rewrite V3.
      n64; rewrite V1.
      n64; rewrite V2.
      rewrite minus_IZR, opp_IZR. lra. }
    split; [exact F4|]. pose proof V3 as V5.
    n64. rewrite V5 in V4. apply Rle_antisym; apply V4.
  Qed.
  Theorem C47_value_f64 len k : (1 <= len)%nat -> (k < len)%nat -> (Z.of_nat len <= 2 ^ 31)%Z ->
    let v : f64 := aroon_of len k in
    fltb (fZ 0) v = true /\ fleb v (fZ 100) = true /\ (feqb v (fZ 100) = true <-> k = 0%nat).
  Proof.
    intros L K B v.
    destruct (of_nat_int k len K B) as (z & Ez & Fz & Vz).
    destruct (fin_fZ log10 (Z.of_nat len)) as [Fl Vl]; [lia|].
    destruct (fin_fZ log10 100) as [Fh Vh]; [lia|]. destruct (fin_fZ log10 1) as [F1 V1]; [lia|].
    destruct (fin_fZ log10 0) as [F0 V0]; [lia|].
    assert (PL : 0 < IZR (Z.of_nat len)) by (apply IZR_lt; lia).
    assert (PI : 0 < / IZR (Z.of_nat len)) by (apply Rinv_0_lt_compat; exact PL).
    assert (PB : IZR (Z.of_nat len) <= 2147483648) by (apply IZR_le; lia).
    assert (PB' : / 2147483648 <= / IZR (Z.of_nat len)) by (apply Rinv_le; assumption).
    assert (Q : IZR (Z.of_nat len - Z.of_nat k) / IZR (Z.of_nat len) = 1 - IZR (Z.of_nat k) * / IZR (Z.of_nat len)).
    { rewrite minus_IZR. field. lra. }
    assert (QL : / 2147483648 <= IZR (Z.of_nat len - Z.of_nat k) / IZR (Z.of_nat len)).
    { apply Rle_trans with (1 := PB'). unfold Rdiv. rewrite <- (Rmult_1_l (/ IZR (Z.of_nat len))) at 1.
      apply Rmult_le_compat_r; [lra|]. apply (IZR_le 1). lia. }
    assert (QK : 0 <= IZR (Z.of_nat k) * / IZR (Z.of_nat len)).
    { apply Rmult_le_pos; [apply (IZR_le 0); lia|lra]. }
    (* the upper end: exactly 1 for age 0, at most 1 - 2^-31 otherwise *)
    assert (U : exists hi hi100 : f64, is_finite hi = true /\ is_finite hi100 = true /\
              IZR (Z.of_nat len - Z.of_nat k) / IZR (Z.of_nat len) <= B2R hi /\ B2R hi * 100 <= B2R hi100 /\
              B2R hi100 <= 100 /\ (k <> 0%nat -> B2R hi100 < 100)).
    { destruct (Nat.eq_dec k 0) as [Ek|Ek].
      - exists (@fZ f64 (IEEE log10) 1), (@fZ f64 (IEEE log10) 100).
        split; [exact F1|]. split; [exact Fh|].
        n64; rewrite V1.
        n64; rewrite Vh.
        split; [rewrite Q; lra|]. split; [lra|]. split; [lra|congruence].
      - exists below1, below100. split; [reflexivity|]. split; [reflexivity|].
        rewrite below1_val, below100_val. split; [|split; [|split; [|intros _]]; lra].
        rewrite Q. assert (/ IZR (Z.of_nat len) <= IZR (Z.of_nat k) * / IZR (Z.of_nat len)).
        { rewrite <- (Rmult_1_l (/ IZR (Z.of_nat len))) at 1. apply Rmult_le_compat_r; [lra|]. apply (IZR_le 1). lia. }
        lra. }
    destruct U as (hi & hi100 & Fhi & Fhi100 & U1 & U2 & U3 & U4).
    destruct (div_within log10 tiny32 hi z _ Fz Fl) as [Fd [D1 D2]].
    { n64; rewrite Vl. lra. }
    { n64; rewrite Vl. rewrite Vz, tiny32_val. lra. }
    destruct (mult_within log10 tiny32 hi100 _ _ Fd Fh) as [Fv [W1 W2]].
    { n64; rewrite Vh.
      rewrite tiny32_val in *. split; [lra|]. apply Rle_trans with (2 := U2). apply Rmult_le_compat_r; [lra|exact D2]. }
    assert (Ev : v = fmul (fdiv z (fZ (Z.of_nat len))) (fZ 100)).
    { subst v z. reflexivity. }
    assert (FV : is_finite v = true /\ B2R tiny32 <= B2R v <= B2R hi100) by (rewrite Ev; exact (conj Fv (conj W1 W2))).
    clear Fv W1 W2. destruct FV as (Fv & W1 & W2). clearbody v. n64. rewrite tiny32_val in W1.
    split; [|split].
    - change (Bltb (@fofZ f64 (IEEE log10) 0) v = true). rewrite Bltb_correct by assumption.
      apply Rlt_bool_true. n64; rewrite V0. lra.
    - change (Bleb v (@fofZ f64 (IEEE log10) 100) = true). rewrite Bleb_correct by assumption.
      apply Rle_bool_true. n64; rewrite Vh. lra.
    - change (Beqb v (@fofZ f64 (IEEE log10) 100) = true <-> k = 0%nat). rewrite Beqb_correct by assumption.
      n64; rewrite Vh. split.
      + intros E. destruct (Nat.eq_dec k 0) as [|N]; [assumption|exfalso]. specialize (U4 N).
        destruct (Req_bool_spec (B2R v) 100); [lra|discriminate].
      + intros Ek. apply Req_bool_true. apply Rle_antisym; [lra|].
        assert (D3 : B2R (@fZ f64 (IEEE log10) 1) <= B2R (fdiv z (fZ (Z.of_nat len)))).
        { destruct (div_within log10 (@fZ f64 (IEEE log10) 1) hi z _ Fz Fl) as [_ [D3 _]]; [| |exact D3].
          - n64; rewrite Vl. lra.
          - n64; rewrite Vl. rewrite Vz.
            n64; rewrite V1. split; [|exact U1].
            rewrite Q, Ek. change (IZR (Z.of_nat 0)) with 0. lra. }
        pose proof V1 as E1. n64. rewrite E1 in D3.
        destruct (mult_within log10 (@fZ f64 (IEEE log10) 100) hi100 _ _ Fd Fh) as [_ [D4 _]].
        { n64; rewrite Vh.
          split; [apply Rle_trans with (1 * 100); [lra|apply Rmult_le_compat_r; [lra|exact D3]]|].
          apply Rle_trans with (2 := U2). apply Rmult_le_compat_r; [lra|exact D2]. }
        pose proof Vh as E2. n64. rewrite E2 in D4. rewrite Ev. exact D4.
  Qed.
End C47i.

(** ** C48 *)
Section C48.
  Context {F : Type} {NF : Num F}.
  Local Open Scope num_scope.
  (** the first line is at (or above) 100 and the other one below 50. *)
  Definition at100 (a b : option F) : bool :=
    match a, b with Some a, Some b => (fZ 100 <=? a) && (b <? fZ 50) | _, _ => false end.
  (** the two lines crossed, in either direction, at bar [j]. *)
  Definition crossed (xs : list (option F * option F)) j : Prop := went_over xs j \/ went_under xs j.
  (** a cross has happened that has not led to an emission before bar [i]. *)
  Definition pending (xs : list (option F * option F)) (os : list (option direction)) i : Prop :=
    exists j, (j <= i)%nat /\ crossed xs j /\ forall k, (j <= k < i)%nat -> nth_error os k = Some None.

  Definition sw (x : option F * option F) := (snd x, fst x).
  Definition cro (h : list (option F * option F)) : bool := is_some (cross_out (map sw h)).
  Definition str (x : option F * option F) : bool := fgeb (aroon_strength (fst x) (snd x)) (fZ 1).
  Fixpoint apend (rh : list (option F * option F)) : bool :=
    match rh with [] => false | x :: older => (cro (rev rh) || apend older) && negb (str x) && negb (str (sw x)) end.
  Definition aout (h : list (option F * option F)) : option direction :=
    match rev h with
    | [] => None
    | x :: older => if cro h || apend older then if str x then Some Long else if str (sw x) then Some Short else None else None
    end.
  Lemma aroons_run c xs : run aroons_step c aroons_new xs = Ok (each_prefix aout xs).
  Proof.
    destruct cross_makes as (s0 & E0 & B). injection E0 as <-. specialize (B c).
    apply (@run_spec F _ _ _ aroons_step (fun h s => reach cross_step c cross_new (map sw h) (as_cross s) /\ as_cross_mode s = apend (rev h))).
    - split; [apply reach_nil|reflexivity].
    - intros h s x [R M].
      destruct (reach_step _ _ _ _ _ _ _ (sw x) B I R) as (cr & E & R').
      rewrite map_length in E. unfold aroons_step. change (snd x, fst x) with (sw x). rewrite E. cbn [rbind].
      change (map sw h ++ [sw x]) with (map sw h ++ map sw [x]) in *. rewrite <- map_app in *.
      change (fgeb (aroon_strength (fst x) (snd x)) (fZ 1)) with (str x).
      change (fgeb (aroon_strength (snd x) (fst x)) (fZ 1)) with (str (sw x)).
      unfold aout. rewrite rev_app_distr. cbn [rev app]. unfold cro. rewrite M.
      destruct (is_some (cross_out (map sw (h ++ [x])))) eqn:E1, (apend (rev h)) eqn:E2, (str x) eqn:E3, (str (sw x)) eqn:E4;
        cbn [orb andb negb]; (eexists; split; [reflexivity|]); (split; [exact R'|]); cbn [as_cross_mode];
        rewrite ?rev_app_distr; cbn [rev app apend]; unfold cro; rewrite ?rev_involutive, ?E1, ?E2, ?E3, ?E4; reflexivity.
  Qed.

  Lemma cro_iff xs i : (i < length xs)%nat -> cro (firstn (S i) xs) = true <-> crossed (map sw xs) i.
  Proof.
    intros L. unfold cro, cross_out. rewrite <- firstn_map. unfold crossed.
    pose proof (cross_at_iff (map sw xs) i cross_over) as A. pose proof (cross_at_iff (map sw xs) i cross_under) as B.
    rewrite map_length in A, B. specialize (A L). specialize (B L).
    assert (A' : cross_at (firstn (S i) (map sw xs)) cross_over = true <-> went_over (map sw xs) i).
    { rewrite A. unfold went_over, cross_over, fgtb. split; intros (j & a & b & pa & pb & H1 & H2 & H3 & H4); exists j, a, b, pa, pb.
      - apply andb_true_iff in H4. tauto.
      - rewrite andb_true_iff. tauto. }
    assert (B' : cross_at (firstn (S i) (map sw xs)) cross_under = true <-> went_under (map sw xs) i).
    { rewrite B. unfold went_under, cross_under, fgeb. split; intros (j & a & b & pa & pb & H1 & H2 & H3 & H4); exists j, a, b, pa, pb.
      - apply andb_true_iff in H4. tauto.
      - rewrite andb_true_iff. tauto. }
    rewrite <- A', <- B'.
    destruct (cross_at (firstn (S i) (map sw xs)) cross_over); [cbn; intuition|].
    destruct (cross_at (firstn (S i) (map sw xs)) cross_under); cbn; intuition discriminate.
  Qed.
  (** [cross_mode] before the emission test at bar [i]. *)
  Lemma pending_iff xs i : (i < length xs)%nat ->
    (cro (firstn (S i) xs) || apend (rev (firstn i xs)) = true <-> pending (map sw xs) (each_prefix aout xs) i).
  Proof.
    induction i as [|i IH]; intros L.
    - cbn [firstn rev apend]. rewrite orb_false_r. change (match xs with [] => [] | a :: _ => [a] end) with (firstn 1 xs).
      rewrite (cro_iff xs 0 L). unfold pending. split.
      + intros C. exists 0%nat. split; [lia|]. split; [exact C|lia].
      + intros (j & J & C & _). assert (j = 0%nat) by lia. subst. exact C.
    - destruct (nth_error xs i) as [x|] eqn:N; [|apply nth_error_None in N; lia].
      rewrite (firstn_S_nth xs i x N), rev_app_distr. cbn [rev app apend]. rewrite rev_involutive, <- (firstn_S_nth xs i x N).
      specialize (IH ltac:(lia)).
      assert (O : nth_error (each_prefix aout xs) i = Some (if cro (firstn (S i) xs) || apend (rev (firstn i xs)) then if str x then Some Long else if str (sw x) then Some Short else None else None)).
      { rewrite nth_error_each_prefix by lia. unfold aout. rewrite (firstn_S_nth xs i x N) at 1. rewrite rev_app_distr. reflexivity. }
      rewrite !orb_true_iff, !andb_true_iff, !negb_true_iff. rewrite (cro_iff xs (S i) L). split.
      + intros [C|[[P S1] S2]].
        * exists (S i). split; [lia|]. split; [exact C|lia].
        * apply IH in P as P'. destruct P' as (j & J & C & Q). exists j. split; [lia|]. split; [exact C|].
          intros k K. destruct (Nat.eq_dec k i) as [->|]; [|apply Q; lia]. rewrite O, S1, S2.
          destruct (_ || _); reflexivity.
      + intros (j & J & C & Q). destruct (Nat.eq_dec j (S i)) as [->|]; [left; exact C|right].
        assert (P : cro (firstn (S i) xs) || apend (rev (firstn i xs)) = true).
        { apply IH. exists j. split; [lia|]. split; [exact C|]. intros k K. apply Q. lia. }
        specialize (Q i ltac:(lia)). rewrite O, P in Q. destruct (str x); [discriminate|]. destruct (str (sw x)); [discriminate|].
        split; [split; [exact P|reflexivity]|reflexivity].
  Qed.
  Lemma crossed_sw xs j : crossed (map sw xs) j <-> crossed xs j.
  Proof.
    assert (Hl : forall i a b, lines (map sw xs) i b a <-> lines xs i a b).
    { intros i a b. unfold lines. rewrite nth_error_map. destruct (nth_error xs i) as [[u v]|]; cbn; [|split; discriminate].
      split; intros E; injection E as -> ->; reflexivity. }
    unfold crossed, went_over, went_under. split; (intros [H|H]; [right|left]);
      destruct H as (i & a & b & pa & pb & -> & H1 & H2 & H3 & H4); exists i, b, a, pb, pa; (split; [reflexivity|]);
      first [rewrite Hl in H1, H2; tauto|rewrite !Hl; tauto].
  Qed.
  Lemma pending_sw xs os i : pending (map sw xs) os i <-> pending xs os i.
  Proof. unfold pending. split; intros (j & A & B & C); exists j; (split; [exact A|]); (split; [|exact C]); apply crossed_sw; exact B. Qed.
  Lemma aroons_spec (S100 : forall a b, fgeb (aroon_strength a b) (fZ 1) = at100 a b) c xs :
    exists os, run aroons_step c aroons_new xs = Ok os /\ length os = length xs /\
    forall i up down, nth_error xs i = Some (up, down) ->
      (nth_error os i = Some (Some Long) <-> pending xs os i /\ at100 up down = true) /\
      (nth_error os i = Some (Some Short) <-> pending xs os i /\ at100 up down = false /\ at100 down up = true).
  Proof.
    exists (each_prefix aout xs). split; [apply aroons_run|]. split; [apply length_each_prefix|].
    intros i up down N. assert (L : (i < length xs)%nat) by (apply nth_error_Some; congruence).
    rewrite <- pending_sw, <- (pending_iff xs i L).
    assert (O : nth_error (each_prefix aout xs) i = Some (if cro (firstn (S i) xs) || apend (rev (firstn i xs)) then if str (up, down) then Some Long else if str (sw (up, down)) then Some Short else None else None)).
    { rewrite nth_error_each_prefix by lia. unfold aout. rewrite (firstn_S_nth xs i _ N) at 1. rewrite rev_app_distr. reflexivity. }
    rewrite O. unfold str, sw; cbn [fst snd]. rewrite !S100.
    destruct (_ || _), (at100 up down), (at100 down up); split; split; intuition discriminate.
  Qed.
  (** between two emissions the lines cross. *)
  Lemma aroons_once (S100 : forall a b, fgeb (aroon_strength a b) (fZ 1) = at100 a b) c xs os i k d e :
    run aroons_step c aroons_new xs = Ok os -> nth_error os i = Some (Some d) -> nth_error os k = Some (Some e) -> (i < k)%nat ->
    exists j, (i < j <= k)%nat /\ crossed xs j.
  Proof.
    intros R Hi Hk L. destruct (aroons_spec S100 c xs) as (os' & R' & LN & H). rewrite R in R'; injection R' as <-.
    assert (K : (k < length xs)%nat) by (rewrite <- LN; apply nth_error_Some; congruence).
    destruct (nth_error xs k) as [[u v]|] eqn:N; [|apply nth_error_None in N; lia].
    destruct (H k u v N) as [H1 H2].
    assert (P : pending xs os k) by (destruct e; [apply H1 in Hk|apply H2 in Hk]; tauto).
    destruct P as (j & J & C & Q). exists j. split; [|exact C].
    destruct (Nat.le_gt_cases j i); [|lia]. rewrite (Q i ltac:(lia)) in Hi. discriminate.
  Qed.
End C48.
Lemma exact_strength a b : fgeb (aroon_strength a b : xr) (fZ 1) = at100 a b.
Proof.
  unfold aroon_strength, at100, fgeb, fgtb. rewrite !fin_Z.
  destruct a as [a|], b as [b|]; try (rewrite fin_le; destruct (Rleb_spec 1 0); [lra|reflexivity]).
  destruct (b <? Fin 50)%num eqn:B; [|rewrite !andb_false_r, fin_le; destruct (Rleb_spec 1 0); [lra|reflexivity]].
  rewrite !andb_true_r. destruct a as [a| | |].
  - rewrite fin_lt, !fin_le, fin_sub. destruct (Rltb_spec 50 a).
    + rewrite fin_div, fin_sub, fin_le by lra.
      destruct (Rleb_spec 1 (1 - (100 - a) / 50)), (Rleb_spec 100 a); try reflexivity; lra.
    + rewrite fin_le. destruct (Rleb_spec 1 0), (Rleb_spec 100 a); try reflexivity; lra.
  - cbn. destruct (Req_EM_T 50 0); [lra|]. unfold rsgn. destruct (Rlt_dec 0 50); [reflexivity|lra].
  - cbn. unfold xleb; cbn. destruct (Rltb_spec 0 1); [reflexivity|lra].
  - cbn. unfold xleb; cbn. destruct (Rltb_spec 0 1); [reflexivity|lra].
Qed.
Theorem C48_aroon_strategy_exact (c : ctx xr) xs :
  exists os, run aroons_step c aroons_new xs = Ok os /\ length os = length xs /\
  forall i up down, nth_error xs i = Some (up, down) ->
    (nth_error os i = Some (Some Long) <-> pending xs os i /\ at100 up down = true) /\
    (nth_error os i = Some (Some Short) <-> pending xs os i /\ at100 up down = false /\ at100 down up = true).
Proof. apply aroons_spec, exact_strength. Qed.
Section C48i.
  Variable log10 : f64 -> f64.
  #[local] Instance N48 : Num f64 := IEEE log10.
  Open Scope R_scope.
  Ltac n64 := cbv [NF64 N48 fZ fnat] in *.
  Notation fexp64 := (SpecFloat.fexp 53 1024).
  Definition e46 : f64 := @B754_finite 53 1024 false 4503599627370496 (-98) eq_refl.
  Definition e52 : f64 := @B754_finite 53 1024 false 4503599627370496 (-104) eq_refl.
  Definition one_e52 : f64 := @B754_finite 53 1024 false 9007199254740990 (-53) eq_refl.
  Definition big : f64 := @B754_finite 53 1024 false 4503599627370496 967 eq_refl.
  Definition big2 : f64 := @B754_finite 53 1024 false 4503599627370496 968 eq_refl.
  Lemma big_val : B2R big = bpow radix2 1019.
  Proof. unfold big, B2R, F2R. cbn [Fnum Fexp cond_Zopp]. change (IZR (Z.pos 4503599627370496)) with (bpow radix2 52). rewrite <- bpow_plus. reflexivity. Qed.
  Lemma big2_val : B2R big2 = bpow radix2 1020.
  Proof. unfold big2, B2R, F2R. cbn [Fnum Fexp cond_Zopp]. change (IZR (Z.pos 4503599627370496)) with (bpow radix2 52). rewrite <- bpow_plus. reflexivity. Qed.
  Lemma e46_val : B2R e46 = / 70368744177664.
  Proof. unfold e46, B2R, F2R; cbn -[IZR bpow]. unfold bpow. cbn -[IZR]. change (Z.pow_pos 2 98) with 316912650057057350374175801344%Z. lra. Qed.
  Lemma e52_val : B2R e52 = / 4503599627370496.
  Proof. unfold e52, B2R, F2R; cbn -[IZR bpow]. unfold bpow. cbn -[IZR]. change (Z.pow_pos 2 104) with 20282409603651670423947251286016%Z. lra. Qed.
  Lemma one_e52_val : B2R one_e52 = 1 - / 4503599627370496.
  Proof. unfold one_e52, B2R, F2R; cbn -[IZR bpow]. unfold bpow. cbn -[IZR]. change (Z.pow_pos 2 53) with 9007199254740992%Z. lra. Qed.
  (** the largest float below 100 *)
  Lemma below_100 (a : f64) : B2R a < 100 -> B2R a <= 100 - / 70368744177664.
  Proof.
    intros L.
    assert (G : generic_format radix2 fexp64 100).
    { replace 100 with (B2R (f64_ofZ 100)) by (apply f64_ofZ_correct; lia). apply generic_format_B2R. }
    assert (VE : Valid_exp fexp64) by apply (fexp_correct 53 1024), eq_refl.
    pose proof (@pred_ge_gt radix2 fexp64 VE (B2R a) 100 (generic_format_B2R _ _ a) G L) as P.
    apply Rle_trans with (1 := P). rewrite pred_eq_pos by lra. unfold pred_pos.
    assert (M : mag radix2 100 = 7%Z :> Z) by (apply mag_unique; rewrite Rabs_pos_eq by lra; cbn; lra).
    rewrite M. cbn -[Req_bool ulp]. rewrite Req_bool_false by lra.
    rewrite ulp_neq_0 by lra. unfold cexp. rewrite M. cbn. lra.
  Qed.
  Lemma f64_strength a b : fgeb (aroon_strength a b : f64) (fZ 1) = at100 a b.
  Proof.
    destruct (fin_fZ log10 100) as [Fh Vh]; [lia|]. destruct (fin_fZ log10 1) as [F1 V1]; [lia|].
    destruct (fin_fZ log10 0) as [F0 V0]; [lia|]. destruct (fin_fZ log10 50) as [F5 V5]; [lia|].
    unfold aroon_strength, at100, fgeb, fgtb.
    assert (Z : fleb (fZ 1) (fZ 0 : f64) = false) by (vm_compute; reflexivity).
    destruct a as [a|], b as [b|]; try exact Z.
    destruct (b <? fZ 50)%num eqn:B; [|rewrite !andb_false_r; exact Z]. rewrite !andb_true_r.
    destruct (is_finite a) eqn:FA.
    2:{ destruct a as [s|[|]| |s m e ?]; try discriminate FA; vm_compute; reflexivity. }
    change (fZ 50 <? a)%num with (Bltb (@fofZ f64 (IEEE log10) 50) a). change (fZ 100 <=? a)%num with (Bleb (@fofZ f64 (IEEE log10) 100) a).
    n64. rewrite Bltb_correct, Bleb_correct, V5, Vh by assumption.
    destruct (Rlt_bool_spec 50 (B2R a)) as [L|L].
    2:{ rewrite Rle_bool_false by lra. exact Z. }
    destruct (Rle_bool_spec 100 (B2R a)) as [G|G].
    - (* at or above 100 *)
      destruct (minus_within log10 (Bopp a) (@fofZ f64 (IEEE log10) 0) _ a Fh FA) as [Fd [D1 D2]].
      { n64. rewrite Vh, V0, B2R_Bopp. lra. }
      destruct (div_within log10 (Bopp big) (@fofZ f64 (IEEE log10) 0) _ _ Fd F5) as [Fq [Q1 Q2]].
      { n64. rewrite V5. lra. }
      { n64. rewrite V5, V0, B2R_Bopp, big_val in *.
        assert (HA : B2R a <= 50 * bpow radix2 1019).
        { apply Rle_trans with (bpow radix2 1024).
          - apply Rlt_le, Rle_lt_trans with (2 := abs_B2R_lt_emax _ _ a). apply Rle_abs.
          - change 1024%Z with (5 + 1019)%Z. rewrite bpow_plus. apply Rmult_le_compat_r; [apply bpow_ge_0|cbn; lra]. }
        set (u := B2R (_ - _)%num) in *. set (w := bpow radix2 1019) in *. lra. }
      destruct (minus_within log10 (@fofZ f64 (IEEE log10) 1) big2 _ _ F1 Fq) as [Fs [S1 S2]].
      { n64. rewrite V1, V0, B2R_Bopp, big_val, big2_val in *.
        assert (1 <= bpow radix2 1019) by (apply (bpow_le radix2 0); lia).
        change 1020%Z with (1 + 1019)%Z. rewrite bpow_plus. change (bpow radix2 1) with 2. lra. }
      change (Bleb (@fofZ f64 (IEEE log10) 1) (fofZ 1 - (fofZ 100 - a) / fofZ 50)%num = true).
      rewrite Bleb_correct by assumption. apply Rle_bool_true. exact S1.
    - (* below 100 *)
      apply below_100 in G.
      destruct (minus_within log10 e46 (@fofZ f64 (IEEE log10) 50) _ a Fh FA) as [Fd [D1 D2]].
      { n64. rewrite Vh, V5, e46_val. lra. }
      destruct (div_within log10 e52 (@fofZ f64 (IEEE log10) 1) _ _ Fd F5) as [Fq [Q1 Q2]].
      { n64. rewrite V5. lra. }
      { n64. rewrite V5, V1, e52_val in *. rewrite e46_val in D1. set (u := B2R (_ - _)%num) in *. lra. }
      destruct (minus_within log10 (@fofZ f64 (IEEE log10) 0) one_e52 _ _ F1 Fq) as [Fs [S1 S2]].
      { n64. rewrite V1, V0, e52_val, one_e52_val in *. lra. }
      change (Bleb (@fofZ f64 (IEEE log10) 1) (fofZ 1 - (fofZ 100 - a) / fofZ 50)%num = false).
      rewrite Bleb_correct by assumption. apply Rle_bool_false. n64. rewrite V1. rewrite one_e52_val in S2.
      apply Rle_lt_trans with (1 := S2). lra.
  Qed.
  Theorem C48_aroon_strategy_f64 (c : ctx f64) xs :
    exists os, run aroons_step c aroons_new xs = Ok os /\ length os = length xs /\
    forall i up down, nth_error xs i = Some (up, down) ->
      (nth_error os i = Some (Some Long) <-> pending xs os i /\ at100 up down = true) /\
      (nth_error os i = Some (Some Short) <-> pending xs os i /\ at100 up down = false /\ at100 down up = true).
  Proof. apply aroons_spec, f64_strength. Qed.
  (** At most one emission per cross. *)
  Theorem C48_one_per_cross (c : ctx f64) xs os i k d e :
    run aroons_step c aroons_new xs = Ok os -> nth_error os i = Some (Some d) -> nth_error os k = Some (Some e) -> (i < k)%nat ->
    exists j, (i < j <= k)%nat /\ crossed xs j.
  Proof. apply aroons_once, f64_strength. Qed.
End C48i.
Example C48_ex : run aroons_step ctx6 aroons_new
    (combine (qs [100; 20; 60; 100; 100; 20]%Z) (qs [20; 100; 50; 40; 20; 100]%Z)) =
  Ok [None; Some Short; None; Some Long; None; Some Short].
Proof. vm_compute. reflexivity. Qed.

(** ** C49 *)
Section C49.
  Context {F : Type} {NF : Num F}.
  Local Open Scope num_scope.
  (** The indicator is above [t] at bar [i] and was not above it at the bar before. *)
  Definition crosses_above (t : F) (vs : list (option F)) i : Prop :=
    exists j v p, i = S j /\ nth_error vs i = Some (Some v) /\ nth_error vs j = Some (Some p) /\ (t <? v) = true /\ (p <=? t) = true.
  Definition crosses_below (t : F) (vs : list (option F)) i : Prop :=
    exists j v p, i = S j /\ nth_error vs i = Some (Some v) /\ nth_error vs j = Some (Some p) /\ (v <? t) = true /\ (t <=? p) = true.
  (** Long where the indicator crosses above [lo], Short where it crosses below [hi]
      (and does not cross above [lo]), nothing elsewhere. *)
  Definition threshold_signals (lo hi : F) (vs : list (option F)) (os : list (option direction)) : Prop :=
    length os = length vs /\ forall i o, nth_error os i = Some o ->
      (o = Some Long <-> crosses_above lo vs i) /\
      (o = Some Short <-> crosses_below hi vs i /\ ~ crosses_above lo vs i).

  Lemma line_nth (t : F) (vs : list (option F)) i v u : nth_error (map (fun v => (v, Some t)) vs) i = Some (Some v, Some u) <->
    nth_error vs i = Some (Some v) /\ u = t.
  Proof.
    rewrite nth_error_map. destruct (nth_error vs i) as [[w|]|]; cbn; split; try discriminate; try (intros [? ?]; discriminate).
    - intros E. injection E as -> <-. auto.
    - intros [E ->]. injection E as ->. reflexivity.
  Qed.
  Lemma above_over (t : F) (vs : list (option F)) i : crosses_above t vs i <-> went_over (map (fun v => (v, Some t)) vs) i.
  Proof.
    unfold crosses_above, went_over, lines. split.
    - intros (j & v & p & -> & H1 & H2 & H3 & H4). exists j, v, t, p, t. rewrite !line_nth. auto 10.
    - intros (j & a & b & pa & pb & -> & H1 & H2 & H3 & H4). apply line_nth in H1, H2. destruct H1 as [H1 ->], H2 as [H2 ->].
      exists j, a, pa. auto.
  Qed.
  Lemma below_under (t : F) (vs : list (option F)) i : crosses_below t vs i <-> went_under (map (fun v => (v, Some t)) vs) i.
  Proof.
    unfold crosses_below, went_under, lines. split.
    - intros (j & v & p & -> & H1 & H2 & H3 & H4). exists j, v, t, p, t. rewrite !line_nth. auto 10.
    - intros (j & a & b & pa & pb & -> & H1 & H2 & H3 & H4). apply line_nth in H1, H2. destruct H1 as [H1 ->], H2 as [H2 ->].
      exists j, a, pa. auto.
  Qed.
  Lemma thr_run c o u vs : run thr_step c (thr_new o u) vs =
    Ok (each_prefix (fun h => if cross_at (with_line o h) cross_over then Some Long
                              else if cross_at (with_line u h) cross_under then Some Short else None) vs).
  Proof.
    destruct (crossover_t_makes o) as (s1 & E1 & B1). injection E1 as <-. specialize (B1 c).
    destruct (crossunder_t_makes u) as (s2 & E2 & B2). injection E2 as <-. specialize (B2 c).
    apply (@run_spec F _ _ _ thr_step (fun h s => reach crossover_t_step c (crosst_new o) h (fst s) /\ reach crossunder_t_step c (crosst_new u) h (snd s))).
    - split; apply reach_nil.
    - intros h [a b] x [R1 R2]. cbn [fst snd] in *.
      destruct (reach_step _ _ _ _ _ _ _ x B1 I R1) as (a' & Ea & R1').
      destruct (reach_step _ _ _ _ _ _ _ x B2 I R2) as (b' & Eb & R2').
      exists (a', b'). unfold thr_step. cbn [fst snd]. rewrite Ea, Eb. cbn [rbind]. split; [reflexivity|]. split; assumption.
  Qed.
  Lemma thr_signals c lo hi vs : exists os, run thr_step c (thr_new lo hi) vs = Ok os /\ threshold_signals lo hi vs os.
  Proof.
    rewrite thr_run. eexists; split; [reflexivity|]. split; [apply length_each_prefix|].
    intros i o H. apply nth_each in H. destruct H as [L ->].
    assert (A : cross_at (with_line lo (firstn (S i) vs)) cross_over = true <-> crosses_above lo vs i).
    { rewrite above_over. unfold with_line. rewrite <- firstn_map, cross_at_iff by (rewrite map_length; exact L).
      unfold went_over, cross_over, fgtb. split; intros (j & a & b & pa & pb & H1 & H2 & H3 & H4); exists j, a, b, pa, pb.
      - apply andb_true_iff in H4. tauto.
      - rewrite andb_true_iff. tauto. }
    assert (B : cross_at (with_line hi (firstn (S i) vs)) cross_under = true <-> crosses_below hi vs i).
    { rewrite below_under. unfold with_line. rewrite <- firstn_map, cross_at_iff by (rewrite map_length; exact L).
      unfold went_under, cross_under, fgeb. split; intros (j & a & b & pa & pb & H1 & H2 & H3 & H4); exists j, a, b, pa, pb.
      - apply andb_true_iff in H4. tauto.
      - rewrite andb_true_iff. tauto. }
    rewrite <- A, <- B.
    destruct (cross_at _ cross_over), (cross_at _ cross_under); intuition discriminate.
  Qed.
  (** The oscillator strategies (awesome oscillator, balance of power, Bollinger %B,
      Chaikin money flow, Chande momentum, CCI, Connors Rsi, Coppock, price
      oscillator, Rsi, relative volatility, volume oscillator). *)
  Theorem C49_oscillator_strategies (c : ctx F) oversold overbought vs :
    exists os, run thr_step c (osc_strategy_new oversold overbought) vs = Ok os /\ threshold_signals oversold overbought vs os.
  Proof. apply thr_signals. Qed.
  (** Their default thresholds. *)
  Theorem C49_default_thresholds (c : ctx F) vs :
    (exists os, run thr_step c zero_strategy_default vs = Ok os /\ threshold_signals (fZ 0) (fZ 0) vs os) /\
    (exists os, run thr_step c bbpb_strategy_default vs = Ok os /\ threshold_signals (fZ 0) (fZ 1) vs os) /\
    (exists os, run thr_step c cmo_strategy_default vs = Ok os /\ threshold_signals (fZ (-50)) (fZ 50) vs os) /\
    (exists os, run thr_step c cci_strategy_default vs = Ok os /\ threshold_signals (fZ (-200)) (fZ 200) vs os) /\
    (exists os, run thr_step c crsi_strategy_default vs = Ok os /\ threshold_signals (fZ 20) (fZ 80) vs os) /\
    (exists os, run thr_step c rsi_strategy_default vs = Ok os /\ threshold_signals (fZ 30) (fZ 70) vs os) /\
    (exists os, run thr_step c rvoli_strategy_default vs = Ok os /\ threshold_signals (fZ 20) (fZ 80) vs os).
  Proof. repeat split; apply thr_signals. Qed.
  (** Stochastic Rsi: on the [k] line. *)
  Theorem C49_stoch_rsi_strategy (c : ctx F) oversold overbought kds :
    exists os, run srsi_strategy_step c (osc_strategy_new oversold overbought) kds = Ok os /\
               threshold_signals oversold overbought (map fst kds) os.
  Proof.
    destruct (thr_signals c oversold overbought (map fst kds)) as (os & E & T). exists os. split; [|exact T].
    rewrite <- E. unfold osc_strategy_new. generalize (thr_new oversold overbought) c. clear.
    induction kds as [|x kds IH]; intros s c; [reflexivity|].
    cbn [map]. rewrite !run_cons. unfold srsi_strategy_step at 1. destruct (thr_step c s (fst x)) as [[s' o]|]; [cbn [rbind]|reflexivity].
    rewrite IH. reflexivity.
  Qed.
  (** Williams %R: the other way round; Macd: on the macd line, against 0. *)
  Theorem C49_williams_strategy (c : ctx F) oversold overbought vs :
    exists os, run thr_step c (wpr_strategy_new oversold overbought) vs = Ok os /\ threshold_signals overbought oversold vs os.
  Proof. apply thr_signals. Qed.
  Theorem C49_williams_default (c : ctx F) vs :
    exists os, run thr_step c wpr_strategy_default vs = Ok os /\ threshold_signals (fZ (-20)) (fZ (-80)) vs os.
  Proof. apply thr_signals. Qed.
  Theorem C49_macd_strategy (c : ctx F) vs :
    exists os, run thr_step c macd_strategy_new vs = Ok os /\ threshold_signals (fZ 0) (fZ 0) vs os.
  Proof. apply thr_signals. Qed.
End C49.
Example C49_ex : run thr_step ctx6 rsi_strategy_default (None :: qs [20; 50; 80; 60; 75; 10]%Z) =
  Ok [None; None; Some Long; None; Some Short; None; Some Short].
Proof. vm_compute. reflexivity. Qed.

(** ** C50 *)
Section C50.
  Context {F : Type} {NF : Num F} {OF : OrdNum F}.
  Local Open Scope num_scope.
  Lemma cross_sig_run c xs : run cross_strategy_step c cross_new xs = Ok (each_prefix (fun h => mode_dir (cross_out h)) xs).
  Proof.
    destruct cross_makes as (s0 & E0 & B). injection E0 as <-. specialize (B c).
    apply (@run_spec F _ _ _ cross_strategy_step (fun h s => reach cross_step c cross_new h s)); [apply reach_nil|].
    intros h s x R. destruct (reach_step _ _ _ _ _ _ _ x B I R) as (s' & E & R'). exists s'. split; [|exact R'].
    unfold cross_strategy_step. rewrite E. reflexivity.
  Qed.
  Lemma cross_out_iff (xs : list (option F * option F)) i : (i < length xs)%nat ->
    (cross_out (firstn (S i) xs) = Some Over <-> went_over xs i) /\ (cross_out (firstn (S i) xs) = Some Under <-> went_under xs i).
  Proof.
    intros L. destruct (C25_cross (@mkCtx F d0 0 0 0 0 false) xs) as (os & R & LN & H).
    destruct cross_makes as (s0 & E0 & B). injection E0 as <-.
    rewrite (B _ xs I) in R. injection R as <-.
    apply (H i (cross_out (firstn (S i) xs))). apply nth_error_each_prefix. exact L.
  Qed.
  (** Vortex (input [(+VI, -VI)]) and relative vigor (input [(rvi, signal)]). *)
  Theorem C50_line_cross (c : ctx F) xs :
    exists os, run cross_strategy_step c cross_new xs = Ok os /\ length os = length xs /\
    forall i o, nth_error os i = Some o -> (o = Some Long <-> went_over xs i) /\ (o = Some Short <-> went_under xs i).
  Proof.
    rewrite cross_sig_run. eexists; split; [reflexivity|]. split; [apply length_each_prefix|].
    intros i o H. apply nth_each in H. destruct H as [L ->]. destruct (cross_out_iff xs i L) as [<- <-].
    destruct (cross_out (firstn (S i) xs)) as [[|]|]; cbn; intuition discriminate.
  Qed.
  (** DMI: only while ADX is above the threshold. *)
  Definition adx_above (t : F) (xs : list (option F * option F * option F)) i : Prop :=
    exists p m a, nth_error xs i = Some (p, m, Some a) /\ (t <? a) = true.
  Lemma dmi_sig_run c t xs : run dmi_strategy_step c (dmi_strategy_new t) xs =
    Ok (each_prefix (fun h => if match join (option_map snd (newest h)) with Some a => t <? a | None => false end
                              then mode_dir (cross_out (map fst h)) else None) xs).
  Proof.
    destruct cross_makes as (s0 & E0 & B). injection E0 as <-. specialize (B c).
    apply (@run_spec F _ _ _ dmi_strategy_step (fun h s => fst s = t /\ reach cross_step c cross_new (map fst h) (snd s))).
    - split; [reflexivity|apply reach_nil].
    - intros h [t' s] [[p m] a] [T R]. cbn [fst snd] in *. subst t'.
      destruct (reach_step _ _ _ _ _ _ _ (p, m) B I R) as (s' & E & R'). rewrite map_length in E.
      exists (t, s'). unfold dmi_strategy_step. cbn [fst snd]. rewrite E. cbn [rbind].
      rewrite newest_snoc. cbn [option_map snd join]. change (map fst h ++ [(p, m)]) with (map fst h ++ map fst [(p, m, a)]) in *.
      rewrite <- map_app in *. split; [destruct a; reflexivity|]. split; [reflexivity|exact R'].
  Qed.
  Theorem C50_dmi_strategy (c : ctx F) t xs :
    exists os, run dmi_strategy_step c (dmi_strategy_new t) xs = Ok os /\ length os = length xs /\
    forall i o, nth_error os i = Some o ->
      (o = Some Long <-> went_over (map fst xs) i /\ adx_above t xs i) /\
      (o = Some Short <-> went_under (map fst xs) i /\ adx_above t xs i).
  Proof.
    rewrite dmi_sig_run. eexists; split; [reflexivity|]. split; [apply length_each_prefix|].
    intros i o H. apply nth_each in H. destruct H as [L ->].
    destruct (cross_out_iff (map fst xs) i ltac:(rewrite map_length; exact L)) as [<- <-]. rewrite firstn_map.
    destruct (nth_error xs i) as [[[p m] a]|] eqn:N; [|apply nth_error_None in N; lia].
    rewrite (newest_firstn xs i _ N). cbn [option_map snd join].
    assert (A : adx_above t xs i <-> match a with Some a => t <? a | None => false end = true).
    { unfold adx_above. rewrite N. destruct a as [a|].
      - split; [intros (p' & m' & a' & E & Q); injection E as _ _ ->; exact Q|intros Q; exists p, m, a; auto].
      - split; [intros (p' & m' & a' & E & Q); discriminate|discriminate]. }
    rewrite A. destruct (match a with Some a => t <? a | None => false end); [|intuition discriminate].
    destruct (cross_out (map fst (firstn (S i) xs))) as [[|]|]; cbn; intuition discriminate.
  Qed.
  Theorem C50_dmi_default_threshold : dmi_strategy_default = dmi_strategy_new (fZ 25 : F).
  Proof. reflexivity. Qed.
End C50.
Example C50_ex : run dmi_strategy_step ctx6 dmi_strategy_default
    (combine (combine (qs [1; 3; 2; 2; 5]%Z) (qs [2; 2; 2; 3; 4]%Z)) (qs [30; 30; 10; 26; 25]%Z)) =
  Ok [None; Some Long; None; Some Short; None].
Proof. vm_compute. reflexivity. Qed.
