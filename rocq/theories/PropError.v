(** * PropError: C119 (how far reported amounts are from the real ones). *)
From Coq Require Import Reals Lra Lia Psatz.
From Flocq Require Import Core IEEE754.BinarySingleNaN Plus_error Relative.
From Verif Require Import Inst PropTick PropWin PIeee2 PRound PMono PropStrategy PropMetrics PropStats.
Local Open Scope R_scope.

(** The most that [m] roundings can multiply an amount by, less 1. *)
Definition grown (m : nat) : R := (1 + u64) ^ m - 1.

Lemma u64_pos : 0 < u64. Proof. apply bpow_gt_0. Qed.
Lemma eta64_pos : 0 < eta64. Proof. apply bpow_gt_0. Qed.
Lemma grown_nonneg m : 0 <= grown m.
Proof. unfold grown. pose proof u64_pos. assert (1 <= (1 + u64) ^ m) by (apply pow_R1_Rle; lra). lra. Qed.
Lemma grown_S m : 1 + grown (S m) = (1 + grown m) * (1 + u64).
Proof. unfold grown. cbn [pow]. ring. Qed.
Lemma grown_add a b : 1 + grown (a + b) = (1 + grown a) * (1 + grown b).
Proof. unfold grown. rewrite pow_add. ring. Qed.
Lemma grown_mono a b : (a <= b)%nat -> grown a <= grown b.
Proof. intros L. unfold grown. pose proof u64_pos. assert ((1 + u64) ^ a <= (1 + u64) ^ b) by (apply Rle_pow; [lra|exact L]). lra. Qed.
Lemma grown_1 : grown 1 = u64. Proof. unfold grown. cbn [pow]. ring. Qed.
(** In plain terms: at most [2^-52] for each rounding. *)
Lemma grown_linear m : (Z.of_nat m <= 2 ^ 52)%Z -> grown m <= 2 * u64 * INR m.
Proof.
  intros B. assert (MU : INR m * u64 <= / 2).
  { unfold u64. rewrite INR_IZR_INZ. apply Rle_trans with (IZR (2 ^ 52) * bpow radix2 (-53)).
    - apply Rmult_le_compat_r; [left; apply bpow_gt_0|]. apply IZR_le, B.
    - change (IZR (2 ^ 52)) with (bpow radix2 52). rewrite <- bpow_plus. change (52 + -53)%Z with (-1)%Z. cbn. lra. }
  pose proof u64_pos as U.
  assert (G : forall k, (k <= m)%nat -> (1 + u64) ^ k * (1 - INR k * u64) <= 1).
  { induction k as [|k IH]; intros L; [cbn; lra|]. specialize (IH ltac:(lia)). rewrite S_INR. cbn [pow].
    assert (INR k <= INR m) by (apply le_INR; lia). pose proof (pos_INR k). assert (P : 0 < (1 + u64) ^ k) by (apply pow_lt; lra).
    apply Rle_trans with ((1 + u64) ^ k * (1 - INR k * u64)); [|exact IH].
    replace ((1 + u64) * (1 + u64) ^ k * (1 - (INR k + 1) * u64)) with ((1 + u64) ^ k * ((1 + u64) * (1 - (INR k + 1) * u64))) by ring.
    apply Rmult_le_compat_l; [lra|]. nra. }
  specialize (G m (le_n m)). unfold grown. set (p := (1 + u64) ^ m) in *. pose proof (pos_INR m).
  assert (1 <= p) by (apply pow_R1_Rle; lra). assert (0 <= INR m * u64) by (apply Rmult_le_pos; lra). nra.
Qed.

(** ** One operation *)
Section Ops.
  Notation fexp64 := (SpecFloat.fexp 53 1024).
  Notation rnd r := (round radix2 fexp64 (round_mode mode_NE) r).
  Lemma rnd_plus x y : generic_format radix2 fexp64 x -> generic_format radix2 fexp64 y -> Rabs (rnd (x + y) - (x + y)) <= u64 * Rabs (x + y).
  Proof.
    intros Fx Fy. change fexp64 with (FLT_exp (-1074) 53) in *.
    destruct (@FLT_plus_error_N_ex radix2 (-1074) 53 eq_refl (fun x => negb (Z.even x)) x y Fx Fy) as (e & He & E).
    change (round_mode mode_NE) with (Znearest (fun x => negb (Z.even x))). rewrite E.
    replace ((x + y) * (1 + e) - (x + y)) with (e * (x + y)) by ring. rewrite Rabs_mult. apply Rmult_le_compat_r; [apply Rabs_pos|].
    eapply Rle_trans; [exact He|]. unfold u_ro. assert (U : / 2 * bpow radix2 (- (53) + 1) = u64).
    { unfold u64. change (-(53) + 1)%Z with (-53 + 1)%Z. rewrite bpow_plus. cbn. lra. }
    rewrite U. pose proof u64_pos. apply Rmult_le_reg_r with (1 + u64); [lra|]. unfold Rdiv. rewrite Rmult_assoc, Rinv_l by lra. nra.
  Qed.
  Lemma plus_rel (x y : f64) : is_finite (Bplus mode_NE x y) = true -> is_finite x = true /\ is_finite y = true /\
    Rabs (B2R (Bplus mode_NE x y) - (B2R x + B2R y)) <= u64 * Rabs (B2R x + B2R y).
  Proof.
    intros F. assert (Fx : is_finite x = true) by (destruct x as [|[]| |], y as [|[]| |]; try reflexivity; discriminate F).
    assert (Fy : is_finite y = true) by (destruct x as [|[]| |], y as [|[]| |]; try reflexivity; discriminate F).
    split; [exact Fx|]. split; [exact Fy|]. destruct (plus_rounded x y Fx Fy) as [(_ & E & _)|[[E _]|[E _]]]; [|rewrite E in F; discriminate F|rewrite E in F; discriminate F].
    rewrite E. apply rnd_plus; apply generic_format_B2R.
  Qed.
  Lemma minus_rel (x y : f64) : is_finite (Bminus mode_NE x y) = true -> is_finite x = true /\ is_finite y = true /\
    Rabs (B2R (Bminus mode_NE x y) - (B2R x - B2R y)) <= u64 * Rabs (B2R x - B2R y).
  Proof.
    intros F. assert (Fx : is_finite x = true) by (destruct x as [|[]| |], y as [|[]| |]; try reflexivity; discriminate F).
    assert (Fy : is_finite y = true) by (destruct x as [|[]| |], y as [|[]| |]; try reflexivity; discriminate F).
    split; [exact Fx|]. split; [exact Fy|]. destruct (PropWin.minus_rounded x y Fx Fy) as [(_ & E & _)|[[E _]|[E _]]]; [|rewrite E in F; discriminate F|rewrite E in F; discriminate F].
    rewrite E. apply (rnd_plus (B2R x) (- B2R y)); [|apply generic_format_opp]; apply generic_format_B2R.
  Qed.
  Lemma mult_rel (x y : f64) : is_finite (Bmult mode_NE x y) = true -> is_finite x = true /\ is_finite y = true /\
    Rabs (B2R (Bmult mode_NE x y) - B2R x * B2R y) <= u64 * Rabs (B2R x * B2R y) + eta64.
  Proof.
    intros F. assert (Fx : is_finite x = true) by (destruct x as [|[]| |], y as [|[]| |]; try reflexivity; discriminate F).
    assert (Fy : is_finite y = true) by (destruct x as [|[]| |], y as [|[]| |]; try reflexivity; discriminate F).
    split; [exact Fx|]. split; [exact Fy|]. destruct (mult_rounded x y Fx Fy) as [(_ & E & _)|[[E _]|[E _]]]; [|rewrite E in F; discriminate F|rewrite E in F; discriminate F].
    rewrite E. apply rnd_err.
  Qed.
  (** Dividing by a positive number. *)
  Lemma div_rel (x y : f64) : is_finite (Bdiv mode_NE x y) = true -> is_finite y = true -> 0 < B2R y -> is_finite x = true /\
    Rabs (B2R (Bdiv mode_NE x y) - B2R x / B2R y) <= u64 * Rabs (B2R x / B2R y) + eta64.
  Proof.
    intros F Fy P. assert (Fx : is_finite x = true) by (destruct x as [|[]| |], y as [|[]| |]; try reflexivity; try discriminate F; discriminate Fy).
    split; [exact Fx|]. destruct (div_rounded x y Fx Fy P) as [(_ & E & _)|[[E _]|[E _]]]; [|rewrite E in F; discriminate F|rewrite E in F; discriminate F].
    rewrite E. apply rnd_err.
  Qed.
End Ops.

(** ** Sums *)
Lemma Rplus_all_app l m : Rplus_all (l ++ m) = Rplus_all l + Rplus_all m.
Proof. unfold Rplus_all. induction l as [|x l IH]; cbn [app fold_right]; [ring|]. rewrite IH. ring. Qed.
Lemma Rplus_all_abs l : Rabs (Rplus_all l) <= Rplus_all (map Rabs l).
Proof.
  induction l as [|x l IH]; [cbn; rewrite Rabs_R0; lra|]. unfold Rplus_all in *. cbn. eapply Rle_trans; [apply Rabs_triang|]. lra.
Qed.
Lemma Rplus_all_nonneg l : 0 <= Rplus_all (map Rabs l).
Proof. induction l as [|x l IH]; [cbn; lra|]. unfold Rplus_all in *. cbn. pose proof (Rabs_pos x). lra. Qed.

(** [x] stands for the sum of [amounts], after [m] roundings and [k] underflows. *)
Definition stands_for (m k : nat) (x : f64) (amounts : list R) : Prop :=
  is_finite x = true /\
  Rabs (B2R x - Rplus_all amounts) <= grown m * Rplus_all (map Rabs amounts) + (1 + grown m) * (INR k * eta64).

Section C119.
  Variable log10 : f64 -> f64.
  #[local] Instance N119 : Num f64 := IEEE log10.
  #[local] Instance O119 : OrdNum f64 := IEEEOrd log10.

  Lemma total_snoc (xs : list f64) x : total (xs ++ [x]) = Bplus mode_NE (total xs) x.
  Proof. unfold total. rewrite fold_left_app. reflexivity. Qed.
  (** Adding up [f64] numbers one after the other: whenever the result is a
      number, so were all terms, and it is near the real sum. *)
  Theorem C119_sum (xs : list f64) : is_finite (total xs) = true ->
    Forall (fun x => is_finite x = true) xs /\ stands_for (length xs) 0 (total xs) (map B2R xs).
  Proof.
    induction xs as [|x xs IH] using rev_ind; intros F.
    - split; [constructor|]. split; [exact F|]. cbn. rewrite Rminus_0_r, Rabs_R0. lra.
    - rewrite total_snoc in *. destruct (plus_rel _ _ F) as (F1 & F2 & E). destruct (IH F1) as [A [_ B]].
      split; [apply Forall_app; split; [exact A|constructor; [exact F2|constructor]]|]. split; [exact F|].
      assert (M1 : Rplus_all (map B2R (xs ++ [x])) = Rplus_all (map B2R xs) + B2R x) by (rewrite map_app, Rplus_all_app; change (Rplus_all (map B2R [x])) with (B2R x + 0); rewrite Rplus_0_r; reflexivity).
      assert (M2 : Rplus_all (map Rabs (map B2R (xs ++ [x]))) = Rplus_all (map Rabs (map B2R xs)) + Rabs (B2R x)) by (rewrite !map_app, Rplus_all_app; change (Rplus_all (map Rabs (map B2R [x]))) with (Rabs (B2R x) + 0); rewrite Rplus_0_r; reflexivity).
      rewrite M1, M2, app_length. cbn [length]. replace (length xs + 1)%nat with (S (length xs)) by lia.
      cbn [INR] in *. rewrite !Rmult_0_l, !Rmult_0_r, !Rplus_0_r in *.
      set (T := B2R (total xs)) in *. set (T' := B2R (Bplus mode_NE (total xs) x)) in *. set (v := B2R x) in *.
      set (a := Rplus_all (map Rabs (map B2R xs))) in *. set (r := Rplus_all (map B2R xs)) in *.
      assert (RA : Rabs r <= a) by apply Rplus_all_abs. assert (A0 : 0 <= a) by apply Rplus_all_nonneg.
      pose proof (grown_S (length xs)) as G. pose proof (grown_nonneg (length xs)) as G0. pose proof u64_pos as U. pose proof (Rabs_pos v) as V0.
      assert (TV : Rabs (T + v) <= (1 + grown (length xs)) * a + Rabs v).
      { replace (T + v) with ((T - r) + r + v) by ring. eapply Rle_trans; [apply Rabs_triang|]. apply Rplus_le_compat_r. eapply Rle_trans; [apply Rabs_triang|]. lra. }
      replace (T' - (r + v)) with ((T' - (T + v)) + (T - r)) by ring. eapply Rle_trans; [apply Rabs_triang|].
      assert (u64 * Rabs (T + v) <= u64 * ((1 + grown (length xs)) * a + Rabs v)) by (apply Rmult_le_compat_l; lra).
      assert (grown (S (length xs)) >= u64) by (pose proof (grown_mono 1 (S (length xs)) ltac:(lia)) as Q; rewrite grown_1 in Q; lra).
      assert (u64 * Rabs v <= grown (S (length xs)) * Rabs v) by (apply Rmult_le_compat_r; lra).
      replace (grown (S (length xs)) * (a + Rabs v)) with (((1 + grown (length xs)) * (1 + u64) - 1) * a + grown (S (length xs)) * Rabs v) by (rewrite <- G; ring).
      nra.
  Qed.

  (** ** One trade *)
  (** What a trade of [size] made between two prices, in real numbers. *)
  Definition made (t : trade f64) (exit : f64) : R :=
    match t_entry_price t, t_fill t with
    | Some entry, Some size => gained (t_dir t) entry exit * B2R size
    | _, _ => 0
    end.
  Definition realised_amount (t : trade f64) : R := match t_exit_price t with Some x => made t x | None => 0 end.
  Lemma profit_near (t : trade f64) e f x : t_entry_price t = Some e -> t_fill t = Some f -> is_finite (profit_at t e f x) = true ->
    Rabs (B2R (profit_at t e f x) - made t x) <= grown 2 * Rabs (made t x) + (1 + grown 2) * eta64.
  Proof.
    intros E1 E2 F. unfold made, gained. rewrite E1, E2. unfold profit_at in *.
    assert (SG : exists z, is_finite (Bmult mode_NE (Bminus mode_NE x e) f) = true /\ (z = 1 \/ z = -1) /\
      B2R (fmul (fmul (fsub x e) f) (sign (t_dir t))) = z * B2R (Bmult mode_NE (Bminus mode_NE x e) f) /\ (if dir_eqb (t_dir t) Long then 1 else -1) = z).
    { destruct (t_dir t); cbn [sign dir_eqb] in *.
      - exists 1. change (fmul (fmul (fsub x e) f) (fZ 1)) with (Bmult mode_NE (Bmult mode_NE (Bminus mode_NE x e) f) (f64_ofZ 1)) in *.
        rewrite f64_mul_1 in *. split; [exact F|]. split; [auto|]. split; [ring|reflexivity].
      - exists (-1). change (fmul (fmul (fsub x e) f) (fZ (-1))) with (Bmult mode_NE (Bmult mode_NE (Bminus mode_NE x e) f) (f64_ofZ (-1))) in *.
        rewrite f64_mul_m1 in *. rewrite is_finite_Bopp in F. split; [exact F|]. split; [auto|]. rewrite B2R_Bopp. split; [ring|reflexivity]. }
    destruct SG as (z & F' & Z & -> & ->). destruct (mult_rel _ _ F') as (Fd & Ff & E). destruct (minus_rel _ _ Fd) as (_ & _ & D).
    set (p := B2R (Bmult mode_NE (Bminus mode_NE x e) f)) in *. set (d := B2R (Bminus mode_NE x e)) in *. set (s := B2R f) in *. set (r := B2R x - B2R e) in *.
    assert (Q : Rabs (p - r * s) <= grown 2 * Rabs (r * s) + (1 + grown 2) * eta64).
    { pose proof u64_pos as U. pose proof eta64_pos as H. pose proof (grown_nonneg 2) as G0.
      assert (DS : Rabs (d * s - r * s) <= u64 * Rabs (r * s)).
      { replace (d * s - r * s) with ((d - r) * s) by ring. rewrite !Rabs_mult. rewrite <- Rmult_assoc. apply Rmult_le_compat_r; [apply Rabs_pos|exact D]. }
      assert (DS' : Rabs (d * s) <= (1 + u64) * Rabs (r * s)).
      { replace (d * s) with ((d * s - r * s) + r * s) by ring. eapply Rle_trans; [apply Rabs_triang|]. lra. }
      replace (p - r * s) with ((p - d * s) + (d * s - r * s)) by ring. eapply Rle_trans; [apply Rabs_triang|].
      assert (u64 * Rabs (d * s) <= u64 * ((1 + u64) * Rabs (r * s))) by (apply Rmult_le_compat_l; lra).
      assert (G2 : grown 2 = 2 * u64 + u64 * u64) by (unfold grown; cbn [pow]; ring). rewrite G2 in *.
      assert (0 <= (2 * u64 + u64 * u64) * eta64) by (apply Rmult_le_pos; lra). lra. }
    destruct Z as [-> | ->].
    - replace (1 * p - 1 * r * s) with (p - r * s) by ring. replace (1 * r * s) with (r * s) by ring. exact Q.
    - replace (-1 * p - -1 * r * s) with (- (p - r * s)) by ring. replace (-1 * r * s) with (- (r * s)) by ring. rewrite !Rabs_Ropp. exact Q.
  Qed.
  (** Sums of terms that are each near a real amount. *)
  Lemma sum_of_near {A} (l : list A) (x : A -> f64) (r : A -> R) : is_finite (total (map x l)) = true ->
    (forall a, In a l -> is_finite (x a) = true -> Rabs (B2R (x a) - r a) <= grown 2 * Rabs (r a) + (1 + grown 2) * eta64) ->
    stands_for (length l + 2) (length l) (total (map x l)) (map r l).
  Proof.
    intros F H. destruct (C119_sum _ F) as [FA [_ B]]. split; [exact F|]. rewrite map_length in B. cbn [INR] in B. rewrite Rmult_0_l, Rmult_0_r, Rplus_0_r in B.
    assert (K : Rabs (Rplus_all (map B2R (map x l)) - Rplus_all (map r l)) <= grown 2 * Rplus_all (map Rabs (map r l)) + INR (length l) * ((1 + grown 2) * eta64) /\
      Rplus_all (map Rabs (map B2R (map x l))) <= (1 + grown 2) * Rplus_all (map Rabs (map r l)) + INR (length l) * ((1 + grown 2) * eta64)).
    { clear B F. induction l as [|a l IH]; [cbn; rewrite Rminus_0_r, Rabs_R0; split; lra|].
      cbn [map] in FA. inversion FA as [|? ? Fa FL]; subst. destruct (IH ltac:(intros b I; apply H; right; exact I) FL) as [I1 I2].
      pose proof (H a (or_introl eq_refl) Fa) as Ha. cbn [map length]. rewrite S_INR. unfold Rplus_all in *. cbn [fold_right].
      set (s1 := fold_right Rplus 0 (map B2R (map x l))) in *. set (s2 := fold_right Rplus 0 (map r l)) in *. set (s3 := fold_right Rplus 0 (map Rabs (map r l))) in *.
      set (s4 := fold_right Rplus 0 (map Rabs (map B2R (map x l)))) in *. split.
      - replace (B2R (x a) + s1 - (r a + s2)) with ((B2R (x a) - r a) + (s1 - s2)) by ring. eapply Rle_trans; [apply Rabs_triang|]. lra.
      - assert (Rabs (B2R (x a)) <= (1 + grown 2) * Rabs (r a) + (1 + grown 2) * eta64); [|lra].
        replace (B2R (x a)) with ((B2R (x a) - r a) + r a) by ring. eapply Rle_trans; [apply Rabs_triang|]. lra. }
    destruct K as [K1 K2]. set (n := length l) in *. set (s := Rplus_all (map Rabs (map r l))) in *. assert (S0 : 0 <= s) by apply Rplus_all_nonneg.
    replace (B2R (total (map x l)) - Rplus_all (map r l)) with ((B2R (total (map x l)) - Rplus_all (map B2R (map x l))) + (Rplus_all (map B2R (map x l)) - Rplus_all (map r l))) by ring.
    eapply Rle_trans; [apply Rabs_triang|]. pose proof (grown_nonneg n) as G0. pose proof (grown_nonneg 2) as G2.
    assert (Q : grown n * Rplus_all (map Rabs (map B2R (map x l))) <= grown n * ((1 + grown 2) * s + INR n * ((1 + grown 2) * eta64))) by (apply Rmult_le_compat_l; assumption).
    replace (grown (n + 2)) with ((1 + grown n) * (1 + grown 2) - 1) by (rewrite <- grown_add; ring). lra.
  Qed.

  (** ** A whole backtest *)
  Definition closed_trades (p : trade f64 -> bool) (s : strategy f64) : list (trade f64) := filter (fun t => t_closed t && p t) (s_trades s).
  Lemma closed_near cfg c sigs s t : after cfg c sigs s -> In t (s_trades s) -> t_closed t = true -> is_finite (t_pnl t) = true ->
    Rabs (B2R (t_pnl t) - realised_amount t) <= grown 2 * Rabs (realised_amount t) + (1 + grown 2) * eta64.
  Proof.
    intros A I CL F. apply In_nth_error in I. destruct I as [i N]. destruct (C28_trades _ _ _ _ A i t N) as (et & ep & sz & _ & E1 & E2 & _ & X & _).
    destruct (X CL) as (xt & xp & _ & E3 & _ & PN). pose proof (f_equal (fun o : option f64 => match o with Some x => made t x | None => 0 end) E3 : realised_amount t = made t xp) as RA.
    rewrite RA. rewrite PN in *. apply profit_near; assumption.
  Qed.
  Lemma side_near cfg c sigs s p : after cfg c sigs s -> is_finite (total (map t_pnl (closed_trades p s))) = true ->
    stands_for (length (closed_trades p s) + 2) (length (closed_trades p s)) (total (map t_pnl (closed_trades p s))) (map realised_amount (closed_trades p s)).
  Proof.
    intros A F. apply (sum_of_near _ t_pnl realised_amount F). intros t I Ft. apply filter_In in I. destruct I as [I C]. apply andb_prop in C. destruct C as [C _].
    eapply closed_near; eassumption.
  Qed.
  Lemma total_abs_near cfg c sigs s p : after cfg c sigs s -> is_finite (total (map fabs (map t_pnl (closed_trades p s)))) = true ->
    stands_for (length (closed_trades p s) + 2) (length (closed_trades p s)) (total (map fabs (map t_pnl (closed_trades p s)))) (map (fun t => Rabs (realised_amount t)) (closed_trades p s)).
  Proof.
    intros A F. rewrite map_map in *. apply (sum_of_near _ (fun t => fabs (t_pnl t)) (fun t => Rabs (realised_amount t)) F). intros t I Ft.
    apply filter_In in I. destruct I as [I C]. apply andb_prop in C. destruct C as [C _].
    change (fabs (t_pnl t)) with (Babs (t_pnl t)) in *. rewrite is_finite_Babs in Ft. rewrite B2R_Babs, Rabs_Rabsolu.
    eapply Rle_trans; [apply Rabs_triang_inv2|]. eapply closed_near; eassumption.
  Qed.
  (** The totals of a backtest against the real amounts its closed trades made
      (exit less entry price, times the size, with the sign of the direction):
      with [n] trades, each total that is a number is within [n+2] roundings
      and [n] underflows of the sum of the amounts.  Nothing is assumed of the
      prices, the capital or the sizing. *)
  Theorem C119_totals (cfg : sconfig f64) c sigs s : after cfg c sigs s ->
    let m := s_metrics s in
    let near x l (amount : trade f64 -> R) := is_finite x = true -> stands_for (length l + 2) (length l) x (map amount l) in
    near (sm_net m) (closed_trades (fun _ => true) s) realised_amount /\
    near (sm_long_net m) (closed_trades (fun t => dir_eqb (t_dir t) Long) s) realised_amount /\
    near (sm_short_net m) (closed_trades (fun t => dir_eqb (t_dir t) Short) s) realised_amount /\
    near (sm_gross_profit m) (closed_trades (fun t => fltb (fZ 0) (t_pnl t)) s) realised_amount /\
    near (sm_gross_loss m) (closed_trades (fun t => fltb (t_pnl t) (fZ 0)) s) (fun t => Rabs (realised_amount t)).
  Proof.
    intros A. cbv zeta. pose proof (@C30_totals f64 N119 O119 cfg c sigs s A) as T. cbv zeta in T. destruct T as (T1 & _ & _ & _ & T5 & T6 & T7 & T8).
    rewrite (filter_closed_pnls (fun x => fltb (fZ 0) x) (fun t => fltb (fZ 0) (t_pnl t))) in T5 by reflexivity.
    rewrite (filter_closed_pnls (fun x => fltb x (fZ 0)) (fun t => fltb (t_pnl t) (fZ 0))) in T6 by reflexivity.
    assert (TN : sm_net (s_metrics s) = total (map t_pnl (closed_trades (fun _ => true) s))).
    { rewrite T1. unfold closed_pnls, closed_trades. do 2 f_equal. apply filter_ext. intros t. rewrite andb_true_r. reflexivity. }
    split; [|split; [|split; [|split]]]; intros F.
    - rewrite TN in *. apply (side_near cfg c sigs s _ A F).
    - rewrite T7 in *. apply (side_near cfg c sigs s (fun t => dir_eqb (t_dir t) Long) A F).
    - rewrite T8 in *. apply (side_near cfg c sigs s (fun t => dir_eqb (t_dir t) Short) A F).
    - rewrite T5 in *. apply (side_near cfg c sigs s (fun t => fltb (fZ 0) (t_pnl t)) A F).
    - rewrite T6 in *. apply (total_abs_near cfg c sigs s (fun t => fltb (t_pnl t) (fZ 0)) A F).
  Qed.

  (** The amount the open trade, if there is one, would make at the price [x]. *)
  Definition open_amounts (s : strategy f64) (x : f64) : list R := map (fun t => made t x) (filter (fun t => negb (t_closed t)) (s_trades s)).
  Lemma open_newest cfg c sigs s : after cfg c sigs s ->
    filter (fun t => negb (t_closed t)) (s_trades s) = match newest (s_trades s) with Some t => if t_closed t then [] else [t] | None => [] end.
  Proof.
    intros A. pose proof (C28_trades _ _ _ _ A) as H. destruct (s_trades s) as [|t0 l0] using rev_ind; [reflexivity|].
    rewrite newest_snoc, filter_app. cbn [filter].
    assert (E : filter (fun t => negb (t_closed t)) l0 = []).
    { clear IHl0. assert (Q : forall i t, nth_error l0 i = Some t -> t_closed t = true).
      { intros i t N. assert (L : (i < length l0)%nat) by (apply nth_error_Some; rewrite N; discriminate).
        destruct (H i t ltac:(rewrite nth_error_app1 by exact L; exact N)) as (et & ep & sz & _ & _ & _ & _ & _ & X).
        destruct (t_closed t); [reflexivity|]. destruct (X eq_refl) as (_ & _ & Y). rewrite app_length in Y. cbn in Y. lia. }
      clear -Q. induction l0 as [|t l IH]; [reflexivity|]. cbn [filter]. rewrite (Q 0%nat t eq_refl). cbn [negb]. apply IH. intros i u N. apply (Q (S i) u N). }
    rewrite E. cbn [app]. destruct (t_closed t0); reflexivity.
  Qed.
  (** The equity after a bar: capital, closed trades and the open trade at the close. *)
  Theorem C119_equity (cfg : sconfig f64) c sigs x s : after cfg c (sigs ++ [x]) s ->
    let ts := closed_trades (fun _ => true) s in
    let price := quote (p_close (c_data c)) (c_index c + length sigs) in
    is_finite (sm_equity (s_metrics s)) = true ->
    stands_for (length ts + 4) (length ts + 1) (sm_equity (s_metrics s)) (B2R (sc_capital cfg) :: map realised_amount ts ++ open_amounts s price).
  Proof.
    intros A. cbv zeta. intros F. pose proof (@C31_equity f64 N119 cfg c sigs x s A) as Q. cbv zeta in Q. destruct Q as [EQ OP].
    destruct (C119_totals cfg c _ s A) as (NT & _). cbv zeta in NT.
    set (ts := closed_trades (fun _ => true) s) in *. set (px := quote _ _) in *.
    set (k := sc_capital cfg) in *. set (m := s_metrics s) in *.
    change (sm_equity m = Bplus mode_NE (Bplus mode_NE k (sm_net m)) (sm_open m)) in EQ.
    rewrite EQ in F |- *. destruct (plus_rel _ _ F) as (F1 & F2 & E1). destruct (plus_rel _ _ F1) as (F3 & F4 & E2).
    destruct (NT F4) as [_ B].
    (* the open trade *)
    assert (OB : Rabs (B2R (sm_open m) - Rplus_all (open_amounts s px)) <= grown 2 * Rplus_all (map Rabs (open_amounts s px)) + (1 + grown 2) * eta64).
    { unfold open_amounts. rewrite (open_newest _ _ _ _ A). pose proof eta64_pos as H0. pose proof (grown_nonneg 2) as G0.
      assert (P0 : 0 <= (1 + grown 2) * eta64) by (apply Rmult_le_pos; lra).
      assert (Z : B2R (fZ 0 : f64) = 0) by reflexivity.
      destruct (newest (s_trades s)) as [t|]; [destruct (t_closed t)|].
      - rewrite OP, Z. cbn. rewrite Rminus_0_r, Rabs_R0. lra.
      - destruct OP as (e & f & X1 & X2 & X3). rewrite X3 in *. pose proof (profit_near t e f px X1 X2 F2) as Q.
        cbn [map]. unfold Rplus_all. cbn [fold_right]. rewrite !Rplus_0_r. exact Q.
      - rewrite OP, Z. cbn. rewrite Rminus_0_r, Rabs_R0. lra. }
    split; [exact F|].
    cbn [map]. rewrite map_app. change (Rplus_all (?a :: ?l)) with (a + Rplus_all l). rewrite !Rplus_all_app.
    set (n := length ts) in *. set (o := B2R (sm_open m)) in *. set (o1 := Rplus_all (open_amounts s px)) in *. set (o2 := Rplus_all (map Rabs (open_amounts s px))) in *.
    set (r1 := Rplus_all (map realised_amount ts)) in *. set (r2 := Rplus_all (map Rabs (map realised_amount ts))) in *.
    set (v := B2R k) in *. set (w := B2R (sm_net m)) in *. set (p := B2R (Bplus mode_NE k (sm_net m))) in *. set (z := B2R (Bplus mode_NE (Bplus mode_NE k (sm_net m)) (sm_open m))) in *.
    assert (R0 : 0 <= r2) by apply Rplus_all_nonneg. assert (O0 : 0 <= o2) by apply Rplus_all_nonneg. pose proof (Rabs_pos v) as V0.
    assert (R1 : Rabs r1 <= r2) by apply Rplus_all_abs. assert (O1 : Rabs o1 <= o2) by apply Rplus_all_abs.
    assert (U : 0 < u64) by apply u64_pos. assert (H0 : 0 < eta64) by apply eta64_pos.
    assert (GN : 0 <= grown (n + 2)) by apply grown_nonneg. assert (G2 : 0 <= grown 2) by apply grown_nonneg.
    assert (GM : grown 2 <= grown (n + 2)) by (apply grown_mono; lia).
    assert (G4 : 1 + grown (n + 4) = (1 + grown (n + 2)) * (1 + grown 2)) by (rewrite <- grown_add; do 2 f_equal; lia).
    assert (GE2 : grown 2 = 2 * u64 + u64 * u64) by (unfold grown; cbn [pow]; ring).
    rewrite plus_INR. change (INR 1) with 1. pose proof (pos_INR n) as NP.
    assert (NE : 0 <= INR n * eta64) by (apply Rmult_le_pos; lra).
    assert (W : Rabs w <= (1 + grown (n + 2)) * r2 + (1 + grown (n + 2)) * (INR n * eta64)).
    { replace w with ((w - r1) + r1) by ring. eapply Rle_trans; [apply Rabs_triang|]. lra. }
    assert (O : Rabs o <= (1 + grown 2) * o2 + (1 + grown 2) * eta64).
    { replace o with ((o - o1) + o1) by ring. eapply Rle_trans; [apply Rabs_triang|]. lra. }
    assert (P1 : Rabs (v + w) <= Rabs v + Rabs w) by apply Rabs_triang.
    assert (P2 : Rabs p <= (1 + u64) * (Rabs v + Rabs w)).
    { replace p with ((p - (v + w)) + (v + w)) by ring. eapply Rle_trans; [apply Rabs_triang|]. nra. }
    assert (P3 : Rabs (p + o) <= Rabs p + Rabs o) by apply Rabs_triang.
    assert (TOT : Rabs (z - (v + (r1 + o1))) <= u64 * (Rabs p + Rabs o) + u64 * (Rabs v + Rabs w) + Rabs (w - r1) + Rabs (o - o1)).
    { replace (z - (v + (r1 + o1))) with ((z - (p + o)) + ((p - (v + w)) + ((w - r1) + (o - o1)))) by ring.
      eapply Rle_trans; [apply Rabs_triang|]. eapply Rle_trans; [apply Rplus_le_compat_l, Rabs_triang|]. eapply Rle_trans; [do 2 apply Rplus_le_compat_l; apply Rabs_triang|].
      assert (u64 * Rabs (p + o) <= u64 * (Rabs p + Rabs o)) by (apply Rmult_le_compat_l; lra).
      assert (u64 * Rabs (v + w) <= u64 * (Rabs v + Rabs w)) by (apply Rmult_le_compat_l; lra). lra. }
    eapply Rle_trans; [exact TOT|].
    assert (S1 : u64 * (Rabs p + Rabs o) + u64 * (Rabs v + Rabs w) <= grown 2 * (Rabs v + Rabs w) + u64 * Rabs o) by (rewrite GE2; nra).
    assert (S2 : u64 * Rabs o <= grown 2 * Rabs o) by (apply Rmult_le_compat_r; [apply Rabs_pos|rewrite GE2; nra]).
    assert (S3 : grown 2 * Rabs w <= grown 2 * ((1 + grown (n + 2)) * r2 + (1 + grown (n + 2)) * (INR n * eta64))) by (apply Rmult_le_compat_l; assumption).
    assert (S4 : grown 2 * Rabs o <= grown 2 * ((1 + grown 2) * o2 + (1 + grown 2) * eta64)) by (apply Rmult_le_compat_l; assumption).
    replace (grown (n + 4)) with ((1 + grown (n + 2)) * (1 + grown 2) - 1) by lra.
    set (g := grown (n + 2)) in *. set (h := grown 2) in *. set (ne := INR n * eta64) in *.
    assert (V1 : h * Rabs v <= ((1 + g) * (1 + h) - 1) * Rabs v) by (apply Rmult_le_compat_r; [exact V0|]; nra).
    assert (V2 : ((1 + h) * (1 + h) - 1) * o2 <= ((1 + g) * (1 + h) - 1) * o2) by (apply Rmult_le_compat_r; [exact O0|]; nra).
    assert (V3 : (1 + h) * (1 + h) * eta64 <= (1 + g) * (1 + h) * eta64) by (apply Rmult_le_compat_r; [lra|]; nra).
    replace ((INR n + 1) * eta64) with (ne + eta64) by (unfold ne; ring). lra.
  Qed.

  (** In plain terms. *)
  Theorem C119_plain m k x l : stands_for m k x l -> (Z.of_nat m <= 2 ^ 52)%Z ->
    Rabs (B2R x - Rplus_all l) <= INR m * bpow radix2 (-52) * Rplus_all (map Rabs l) + INR k * bpow radix2 (-1074).
  Proof.
    intros [_ H] B. pose proof (grown_linear m B) as G. eapply Rle_trans; [exact H|].
    assert (U : bpow radix2 (-52) = 2 * u64) by (unfold u64; change (-52)%Z with (1 + -53)%Z; rewrite bpow_plus; reflexivity).
    assert (T : bpow radix2 (-1074) = 2 * eta64) by (unfold eta64; change (-1074)%Z with (1 + -1075)%Z; rewrite bpow_plus; reflexivity).
    rewrite U, T. pose proof (Rplus_all_nonneg l) as P. pose proof eta64_pos as E. pose proof (pos_INR k) as K.
    assert (G1 : grown m <= 1).
    { eapply Rle_trans; [exact G|]. rewrite <- U. rewrite INR_IZR_INZ. apply Rle_trans with (bpow radix2 (-52) * IZR (2 ^ 52)).
      - apply Rmult_le_compat_l; [left; apply bpow_gt_0|]. apply IZR_le, B.
      - change (IZR (2 ^ 52)) with (bpow radix2 52). rewrite <- bpow_plus. cbn. lra. }
    apply Rplus_le_compat; [apply Rmult_le_compat_r; [exact P|]; lra|].
    assert (0 <= INR k * eta64) by (apply Rmult_le_pos; lra). nra.
  Qed.
  (** ** Quotients *)
  Lemma quotient_near m k (x y : f64) l : (is_finite x = true -> stands_for m k x l) -> is_finite y = true -> 0 < B2R y -> is_finite (Bdiv mode_NE x y) = true ->
    Rabs (B2R (Bdiv mode_NE x y) - Rplus_all l / B2R y) <= (grown (S m) * Rplus_all (map Rabs l) + (1 + grown (S m)) * (INR k * eta64)) / B2R y + eta64.
  Proof.
    intros HX Fy P F. destruct (div_rel _ _ F Fy P) as [Fx E]. destruct (HX Fx) as [_ B].
    set (q := B2R (Bdiv mode_NE x y)) in *. set (v := B2R x) in *. set (d := B2R y) in *. set (r := Rplus_all l) in *. set (a := Rplus_all (map Rabs l)) in *.
    assert (A0 : 0 <= a) by apply Rplus_all_nonneg. assert (RA : Rabs r <= a) by apply Rplus_all_abs.
    assert (I : 0 < / d) by (apply Rinv_0_lt_compat, P). pose proof u64_pos as U. pose proof (grown_nonneg m) as G0. rewrite (grown_S m).
    assert (GS : grown (S m) = (1 + grown m) * (1 + u64) - 1) by (rewrite <- grown_S; ring). rewrite GS. set (g := grown m) in *. set (h := INR k * eta64) in *.
    assert (V : Rabs v <= (1 + g) * a + (1 + g) * h).
    { replace v with ((v - r) + r) by ring. eapply Rle_trans; [apply Rabs_triang|]. lra. }
    replace (q - r / d) with ((q - v / d) + (v - r) * / d) by (unfold Rdiv; ring). eapply Rle_trans; [apply Rabs_triang|].
    rewrite (Rabs_mult (v - r)), (Rabs_pos_eq (/ d)) by lra. unfold Rdiv in E at 2. rewrite (Rabs_mult v), (Rabs_pos_eq (/ d)) in E by lra.
    assert (Q1 : Rabs (v - r) * / d <= (g * a + (1 + g) * h) * / d) by (apply Rmult_le_compat_r; lra).
    assert (Q2 : u64 * (Rabs v * / d) <= u64 * (((1 + g) * a + (1 + g) * h) * / d)) by (apply Rmult_le_compat_l; [lra|]; apply Rmult_le_compat_r; lra).
    unfold Rdiv in *. set (i := / d) in *. lra.
  Qed.
  (** The average trade and the net profit as a share of the capital. *)
  Theorem C119_tradingview (cfg : sconfig f64) rfr c sigs os s t : observed tv_step cfg (tv_new (strategy_new cfg) rfr) c sigs os -> newest os = Some (s, t) ->
    let ts := closed_trades (fun _ => true) s in let n := length ts in let amounts := map realised_amount ts in
    let off d := (grown (n + 3) * Rplus_all (map Rabs amounts) + (1 + grown (n + 3)) * (INR n * eta64)) / d + eta64 in
    ((0 < n)%nat -> (Z.of_nat n <= 2 ^ 53)%Z -> is_finite (tv_avg_trade (tv_data t)) = true ->
       Rabs (B2R (tv_avg_trade (tv_data t)) - Rplus_all amounts / INR n) <= off (INR n)) /\
    (is_finite (sc_capital cfg) = true -> 0 < B2R (sc_capital cfg) -> is_finite (tv_net_profit_percent (tv_data t)) = true ->
       Rabs (B2R (tv_net_profit_percent (tv_data t)) - Rplus_all amounts / B2R (sc_capital cfg)) <= off (B2R (sc_capital cfg))).
  Proof.
    intros O N. cbv zeta. destruct (@C39_formulas f64 N119 cfg rfr c sigs os s t O N) as (_ & PC & _ & _ & _ & _ & _ & _ & _ & _ & _ & _ & AV & _).
    pose proof (PropPrint.observed_after log10 _ _ _ _ _ _ _ O N) as A. set (l := sigs) in A.
    destruct (C119_totals cfg c l s A) as (NT & _). cbv zeta in NT.
    pose proof (@C30_totals f64 N119 O119 cfg c l s A) as T. cbv zeta in T. destruct T as (_ & T2 & _).
    assert (CN : sm_closed (s_metrics s) = length (closed_trades (fun _ => true) s)).
    { rewrite T2. unfold closed_pnls, closed_trades. rewrite map_length. f_equal. apply filter_ext. intros u. rewrite andb_true_r. reflexivity. }
    set (ts := closed_trades (fun _ => true) s) in *. set (n := length ts) in *. replace (n + 3)%nat with (S (n + 2)) by lia. split.
    - intros P B F. rewrite AV in *. unfold per in *. rewrite CN in *. destruct (Nat.eqb_spec n 0) as [Z|Z]; [lia|].
      assert (FN : is_finite (f64_ofZ (Z.of_nat n)) = true /\ B2R (f64_ofZ (Z.of_nat n)) = INR n).
      { destruct (f64_ofZ_correct (Z.of_nat n)) as [X1 X2]; [lia|]. rewrite INR_IZR_INZ. auto. }
      change (sm_net (s_metrics s) / fnat n)%num with (Bdiv mode_NE (sm_net (s_metrics s)) (f64_ofZ (Z.of_nat n))) in *.
      destruct FN as [FN EN]. rewrite <- EN at 1 2. assert (0 < INR n) by (apply lt_0_INR, P).
      eapply Rle_trans; [eapply quotient_near; [exact NT|exact FN|rewrite EN; assumption|exact F]|]. rewrite EN. lra.
    - intros Fk Pk F. rewrite PC in *. change (sm_net (s_metrics s) / sc_capital cfg)%num with (Bdiv mode_NE (sm_net (s_metrics s)) (sc_capital cfg)) in *.
      apply (quotient_near _ _ _ _ _ NT Fk Pk F).
  Qed.
  (** The running mean. *)
  Theorem C119_mean (c : ctx f64) xs means i v : run mean_step c mean_new xs = Ok means -> (Z.of_nat (length xs) <= 2 ^ 53)%Z ->
    nth_error means i = Some v -> is_finite v = true ->
    let ys := map B2R (firstn (S i) xs) in let n := INR (S i) in
    Rabs (B2R v - Rplus_all ys / n) <= grown (S i + 1) * (Rplus_all (map Rabs ys) / n) + eta64.
  Proof.
    intros R B N F. cbv zeta. rewrite (C41_mean c xs) in R. injection R as <-. apply nth_each in N. destruct N as [L ->].
    assert (LE : length (firstn (S i) xs) = S i) by (rewrite firstn_length; lia).
    unfold mean in *. rewrite LE in *. set (ys := firstn (S i) xs) in *.
    change (fsum ys / fnat (S i))%num with (Bdiv mode_NE (total ys) (f64_ofZ (Z.of_nat (S i)))) in *.
    destruct (f64_ofZ_correct (Z.of_nat (S i))) as [X1 X2]; [lia|]. rewrite <- INR_IZR_INZ in X1.
    assert (P : 0 < INR (S i)) by (apply lt_0_INR; lia).
    pose proof (quotient_near (S i) 0 (total ys) (f64_ofZ (Z.of_nat (S i))) (map B2R ys)) as Q. rewrite X1 in Q.
    assert (Q0 : is_finite (total ys) = true -> stands_for (S i) 0 (total ys) (map B2R ys)).
    { intros Ft. destruct (C119_sum ys Ft) as [_ G]. rewrite LE in G. exact G. }
    specialize (Q Q0 X2 P F). change (INR 0) with 0 in Q. rewrite Rmult_0_l, Rmult_0_r, Rplus_0_r in Q.
    replace (S i + 1)%nat with (S (S i)) by lia. unfold Rdiv in *. rewrite <- Rmult_assoc. exact Q.
  Qed.
End C119.

(** ** Non-vacuity *)
(** A tenth ten times: near 1, but not 1. *)
Example C119_tenths : let xs := repeat (lit 1 10 : f64) 10 in is_finite (total xs) = true /\ Beqb (total xs) (q 1) = false.
Proof. cbv zeta. split; vm_compute; reflexivity. Qed.
(** The bound is against the sum of the sizes of the amounts: against the total itself
    there is none.  10^16, 1 and -10^16 add up to 0. *)
Example C119_cancel : Beqb (total [q (10 ^ 16); q 1; q (- 10 ^ 16)] : f64) (q 0) = true.
Proof. vm_compute. reflexivity. Qed.
(** A backtest with two closed trades. *)
Example C119_backtest : exists s os, run_st strategy_step ctx6 (strategy_new (cfg_of false true true)) sig6 = Ok (s, os) /\
  is_finite (sm_net (s_metrics s)) = true /\ is_finite (sm_equity (s_metrics s)) = true /\ length (closed_trades (fun _ => true) s) = 2%nat.
Proof.
  destruct (run_st strategy_step ctx6 (strategy_new (cfg_of false true true)) sig6) as [[s os]|] eqn:E.
  - exists s, os. split; [reflexivity|].
    assert (G : match run_st strategy_step ctx6 (strategy_new (cfg_of false true true)) sig6 with
      | Ok (s, _) => is_finite (sm_net (s_metrics s)) && is_finite (sm_equity (s_metrics s)) && (length (closed_trades (fun _ => true) s) =? 2)%nat = true
      | Panic => False end) by (vm_compute; reflexivity).
    rewrite E in G. apply andb_prop in G. destruct G as [G G3]. apply andb_prop in G. destruct G as [G1 G2]. apply Nat.eqb_eq in G3. auto.
  - exfalso. assert (G : match run_st strategy_step ctx6 (strategy_new (cfg_of false true true)) sig6 with Ok _ => True | Panic => False end) by (vm_compute; exact I).
    rewrite E in G. exact G.
Qed.
