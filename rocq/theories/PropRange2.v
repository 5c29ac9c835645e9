(** * PropRange2: C128, more ranges in f64, and three that rounding breaks. *)
From Coq Require Import Reals Lra Lia Psatz.
From Flocq Require Import Core Relative IEEE754.BinarySingleNaN.
From Verif Require Import PTa4 PContent3 Inst PIeee PIeee2 PMono PropTa3 PropContent2 PropContent3 PropContent4 PropContent5 PropRound PropForget PropSafe.
From Verif Require Import PropMissing PropWin PropVar PropRange PropFigures.
Local Open Scope R_scope.

Section Ranges2.
  Variable log10 : f64 -> f64.
  #[local] Instance N128 : Num f64 := IEEE log10.
  #[local] Instance O128 : OrdNum f64 := IEEEOrd log10.
  Notation zero := (f64_ofZ 0).
  Notation one := (f64_ofZ 1).

  (** ** Quotients. *)
  Lemma minus_nonneg (x y : f64) : not_above x y -> nonnegative (Bminus mode_NE y x).
  Proof. intros H. apply nonneg_above. exact (proj1 (sub_wn y x H)). Qed.
  Lemma self_quot (w : f64) : is_finite w = true -> Beqb w zero = false -> Bdiv mode_NE w w = one.
  Proof.
    intros F Z. assert (N : B2R w <> 0).
    { intros E. rewrite Beqb_correct in Z by first [exact F|reflexivity]. rewrite E in Z. change (B2R zero) with 0 in Z. rewrite Req_bool_true in Z by reflexivity. discriminate. }
    destruct w as [s| | |s m e Hb]; try discriminate F; [exfalso; apply N; reflexivity|].
    pose proof (Bdiv_correct 53 1024 _ _ mode_NE (B754_finite s m e Hb) (B754_finite s m e Hb) N) as C.
    unfold Rdiv in C. rewrite Rinv_r in C by exact N.
    assert (R1 : rnd 1 = 1). { rewrite <- (valz log10 1) at 2 by lia. rewrite <- (valz log10 1) at 1 by lia. apply rnd_exact. }
    cbn [round_mode] in *. rewrite R1 in C. rewrite Rlt_bool_true in C.
    - destruct C as (C1 & C2 & C3). apply B2R_Bsign_inj; [exact C2|reflexivity|rewrite C1; symmetry; exact (valz log10 1 ltac:(lia))|].
      rewrite C3; [destruct s; reflexivity|]. destruct (Bdiv mode_NE _ _); try reflexivity; discriminate C2.
    - rewrite Rabs_R1. change 1 with (bpow radix2 0). apply bpow_lt. lia.
  Qed.
  Lemma quot_number (n w : f64) : is_finite n = true -> is_finite w = true -> Beqb w zero = false -> is_nan (Bdiv mode_NE n w) = false.
  Proof.
    intros Fn F Z. assert (N : B2R w <> 0).
    { intros E. rewrite Beqb_correct in Z by first [exact F|reflexivity]. rewrite E in Z. change (B2R zero) with 0 in Z. rewrite Req_bool_true in Z by reflexivity. discriminate. }
    pose proof (Bdiv_correct 53 1024 _ _ mode_NE n w N) as C. destruct (Rlt_bool _ _).
    - destruct C as (_ & C & _). rewrite Fn in C. destruct (Bdiv mode_NE n w); try reflexivity; discriminate C.
    - destruct (Bdiv mode_NE n w); try reflexivity. destruct (xorb _ _); discriminate C.
  Qed.
  Lemma share_high (n w : f64) : nonnegative w -> Beqb w zero = false ->
    (not_above n w -> not_above (Bdiv mode_NE n w) one) /\ (not_above w n -> not_above one (Bdiv mode_NE n w)).
  Proof.
    intros W Z. destruct (finite_cases w) as [Fw|[->|[->| ->]]].
    - assert (Uw : unsigned w). { destruct W as [N|W]; [destruct w; discriminate|]. destruct w as [s|[]| |[] m e H]; try discriminate Z; try discriminate W; try discriminate Fw; right; reflexivity. }
      rewrite <- (self_quot w Fw Z). split; intros H; apply div_mono; assumption.
    - split; intros H; destruct n as [[]|[]| |[] m e Hb]; try reflexivity; cbv in H; discriminate H.
    - destruct W; discriminate.
    - split; intros _; destruct n as [[]|[]| |[] m e Hb]; reflexivity.
  Qed.
  Lemma share_sign (n w : f64) : nonnegative w -> Beqb w zero = false ->
    (not_above zero n -> not_above zero (Bdiv mode_NE n w)) /\ (not_above n zero -> not_above (Bdiv mode_NE n w) zero).
  Proof.
    intros W Z. destruct (is_nan w) eqn:Nw; [destruct w; try discriminate; split; intros _; destruct n as [[]|[]| |[] m e Hb]; reflexivity|].
    assert (Uw : unsigned w). { destruct W as [N|W]; [congruence|]. destruct w as [s|[]| |[] m e H]; try discriminate Z; try discriminate W; try discriminate Nw; right; reflexivity. }
    split; intros H; [apply (proj1 (div_keeps w n Uw Z)); exact H|apply (proj2 (div_keeps w n Uw Z)); exact H].
  Qed.

  Lemma quot_below (n m : f64) : nonnegative n -> fleb m zero = true -> Beqb m zero = false -> is_nan (Bdiv mode_NE n m) = true \/ fleb (Bdiv mode_NE n m) zero = true.
  Proof.
    intros Wn Hm Z. assert (Sm : Bsign m = true) by (destruct m as [[]|[]| |[] ? ? ?]; try discriminate Hm; try discriminate Z; reflexivity).
    destruct (is_nan (Bdiv mode_NE n m)) eqn:N; [left; reflexivity|right].
    apply (nonneg_nz log10) in Wn. destruct Wn as [Wn| ->].
    - assert (Sg : forall z : f64, Bsign z = true -> is_nan z = false -> fleb z zero = true) by (intros z Sz Nz; destruct z as [[]|[]| |[] ? ? ?]; try discriminate Sz; try discriminate Nz; reflexivity).
      apply Sg; [|exact N]. destruct Wn as [Wn|Wn]; [destruct n; try discriminate; cbn in N; destruct m; discriminate|].
      destruct m as [[]|[]| |[] mm e Hb]; try discriminate Sm; try discriminate Z; [destruct n as [[]|[]| |[] ? ? ?]; try discriminate Wn; try discriminate N; reflexivity|].
      assert (NZ : B2R (B754_finite true mm e Hb : f64) <> 0) by (intros E; cbn in E; apply eq_0_F2R in E; discriminate).
      pose proof (Bdiv_correct 53 1024 _ _ mode_NE n (B754_finite true mm e Hb) NZ) as C. destruct (Rlt_bool _ _).
      + destruct C as (_ & _ & C). rewrite C by exact N. rewrite Wn. reflexivity.
      + rewrite Wn in C. cbn [Bsign xorb] in C. apply sf_inf in C. rewrite C. reflexivity.
    - destruct m as [[]|[]| |[] ? ? ?]; try discriminate Sm; try discriminate N; try discriminate Z; reflexivity.
  Qed.
  (** ** Bollinger bands. *)
  Lemma bands_order (m t : f64) : nonnegative t -> not_above (Bminus mode_NE m t) (Bplus mode_NE m t).
  Proof.
    intros T. rewrite minus_is_plus. apply plus_mono; [apply not_above_refl|].
    apply nonneg_above in T. destruct (is_nan t) eqn:Nt; [destruct t; try discriminate; reflexivity|].
    destruct t as [[]|[]| |[] mm e Hb]; try discriminate Nt; try (cbv in T; discriminate T); try reflexivity.
  Qed.
  Lemma nonneg_mult (x y : f64) : nonnegative x -> nonnegative y -> nonnegative (Bmult mode_NE x y).
  Proof.
    intros X Y. apply (nonneg_nz log10) in X. apply (nonneg_nz log10) in Y. apply nz_nonneg.
    destruct X as [X| ->]; [apply (mult_nz log10); assumption|]. destruct Y as [Y| ->]; [|left; right; reflexivity].
    rewrite PMono.mult_comm. apply (mult_nz log10); [exact Y|right; reflexivity].
  Qed.
  Notation "x <=. y" := (fleb x y = true) (at level 70).
  (** [v] is NaN or at least [a]; NaN or at most [a]. *)
  Definition from (a v : f64) : Prop := is_nan v = true \/ a <=. v.
  Definition upto (a v : f64) : Prop := is_nan v = true \/ v <=. a.
  Theorem C128_bollinger len mult c src xs : (1 <= len)%nat -> (Z.of_nat len <= 2 ^ 53)%Z -> f64_ofZ 0 <=. mult -> feeds c src xs ->
    exists ms ds pbs ws, run_new (sma_new len) sma_step c xs = Ok ms /\ run_new (stdev_new len true) stdev_step c xs = Ok ds /\
      run_new (bb_new src len mult) bbpb_step c (ticks (length xs)) = Ok pbs /\
      run_new (bb_new src len mult) bbw_step c (ticks (length xs)) = Ok ws /\
      forall i x m d, nth_error xs i = Some (Some x) -> nth_error ms i = Some (Some m) -> nth_error ds i = Some (Some d) ->
        let u := upper_band mult m d in let l := lower_band mult m d in
        fltb u l = false /\
        (forall v, nth_error pbs i = Some (Some v) ->
           (u <=. x -> from (f64_ofZ 1) v) /\ (x <=. l -> upto (f64_ofZ 0) v) /\
           (l <=. x -> x <=. u -> between (f64_ofZ 0) (f64_ofZ 1) v) /\
           (moderate x -> moderate u -> moderate l -> is_nan v = false)) /\
        (forall w, nth_error ws i = Some (Some w) ->
           (f64_ofZ 0 <=. m -> from (f64_ofZ 0) w) /\ (m <=. f64_ofZ 0 -> upto (f64_ofZ 0) w)).
  Proof.
    intros L L53 Hm Hf. destruct (C59_bollinger len mult c src xs L Hf) as (ms & ds & pbs & ws & E1 & E2 & E3 & E4 & -> & ->).
    do 4 eexists. do 4 (split; [eassumption|]). intros i x m d Hx Hms Hd u l.
    assert (D : nonnegative d). { apply (C107_dispersion log10 len true c xs ds L L53 (or_intror E2)). eapply nth_error_In; exact Hd. }
    assert (T : nonnegative (Bmult mode_NE d mult)) by (apply nonneg_mult; [exact D|right; exact Hm]).
    assert (LU : not_above l u) by (apply bands_order, T).
    assert (W : nonnegative (Bminus mode_NE u l)) by (apply minus_nonneg, LU).
    split; [exact LU|]. split.
    - intros v Hv. rewrite (nth_zip3 _ _ _ _ i _ _ _ Hx Hms Hd) in Hv. cbv zeta in Hv. fold u l in Hv.
      change (feqb (fsub u l) (fZ 0)) with (Beqb (Bminus mode_NE u l) zero) in Hv. destruct (Beqb (Bminus mode_NE u l) zero) eqn:Z; [discriminate|].
      apply some_inj, some_inj in Hv. symmetry in Hv. change v with (v : f64) in Hv.
      change (v = Bdiv mode_NE (Bminus mode_NE x l) (Bminus mode_NE u l)) in Hv. subst v.
      destruct (share_high (Bminus mode_NE x l) _ W Z) as [H1 H2]. destruct (share_sign (Bminus mode_NE x l) _ W Z) as [H3 H4].
      assert (Up : u <=. x -> from one (Bdiv mode_NE (Bminus mode_NE x l) (Bminus mode_NE u l))).
      { intros H. destruct (not_below_le one _ (H2 (minus_above _ _ _ _ (le_not_above _ _ H) (not_above_refl l))) eq_refl); [left|right]; assumption. }
      assert (Dn : x <=. l -> upto zero (Bdiv mode_NE (Bminus mode_NE x l) (Bminus mode_NE u l))).
      { intros H. destruct (not_above_le _ zero (H4 (proj2 (sub_wn l x (le_not_above _ _ H)))) eq_refl); [left|right]; assumption. }
      split; [exact Up|]. split; [exact Dn|]. split.
      + intros A B. apply between_above; [reflexivity..|]. split.
        * apply H3. exact (proj1 (sub_wn x l (le_not_above _ _ A))).
        * apply H1. apply minus_above; [apply le_not_above, B|apply not_above_refl].
      + intros X U V. destruct (diff_of x l X V) as [F1 _]. destruct (diff_of u l U V) as [F2 _].
        apply quot_number; assumption.
    - intros w Hw. rewrite (nth_zip3 _ _ _ _ i _ _ _ Hx Hms Hd) in Hw. cbv zeta in Hw. fold u l in Hw.
      change (feqb m (fZ 0)) with (Beqb m zero) in Hw. destruct (Beqb m zero) eqn:Z; [discriminate|].
      apply some_inj, some_inj in Hw. symmetry in Hw. change (w = Bdiv mode_NE (Bminus mode_NE u l) m) in Hw. subst w. split; intros H.
      + destruct (not_below_le zero _ (proj1 (share_sign (Bminus mode_NE u l) m (or_intror H) Z) (proj1 (nonneg_above _) W)) eq_refl); [left|right]; assumption.
      + apply (quot_below (Bminus mode_NE u l) m W H Z).
  Qed.

  (** ** Relative Volatility Index. *)
  Lemma minus_zero (x : f64) : pz x -> pz (Bminus mode_NE x zero).
  Proof. intros [N|P]; [left; destruct x; try discriminate; reflexivity|right]. destruct x as [[]|[]| |[] m e H]; try discriminate P; reflexivity. Qed.
  (** nothing but zeros has left the window. *)
  Lemma racc_pz len : (1 <= len)%nat -> forall h : list (option f64), all_values nonnegative h ->
    (forall j v, (j + len <= length h)%nat -> nth_error h j = Some (Some v) -> v = zero) -> pz (racc len h).
  Proof.
    intros L h. induction h as [|x h IH] using rev_ind; intros H Z; [right; reflexivity|]. rewrite racc_snoc.
    assert (A : pz (racc len h)).
    { apply IH; [intros v Hv; apply H, in_or_app; left; exact Hv|]. intros j v Hj Ej. apply (Z j v); [rewrite app_length; cbn; lia|]. rewrite nth_error_app1 by (apply nth_error_Some; congruence). exact Ej. }
    assert (B : pz (oadd (racc len h) x)).
    { destruct x as [x|]; [|exact A]. cbn [oadd]. apply (plus_pz log10); [exact A|]. apply (nonneg_nz log10). apply H, in_or_app. right. left. reflexivity. }
    unfold ago. rewrite app_length. cbn [length]. destruct (Nat.ltb_spec (len - 1) (length h + 1)) as [Q|Q]; [|exact B].
    destruct (nth_error (h ++ [x]) (length h + 1 - 1 - (len - 1))) as [[v|]|] eqn:E; [|exact B|exact B]. cbn [join osub].
    rewrite (Z (length h + 1 - 1 - (len - 1))%nat v); [apply minus_zero, B|rewrite app_length; cbn [length]; lia|exact E].
  Qed.
  Lemma ema_runs_nonneg len al xs os p : (1 <= len)%nat -> (Z.of_nat len <= 2 ^ 53)%Z -> weight al -> all_values nonnegative xs ->
    (forall j v, (j < p)%nat -> nth_error xs j = Some (Some v) -> v = zero) -> (forall j, (p <= j)%nat -> nth_error xs j <> Some None) ->
    ema_runs len al xs = Ok os -> all_values nonnegative os.
  Proof.
    intros L L53 W H Pre Post E. destruct (Nat.eq_dec len 1) as [->|N]; [cbn in E; injection E as <-; exact H|].
    assert (UC := weight_complement log10 al W). destruct W as (_ & _ & U).
    destruct (ema_runs_spec len al xs os ltac:(lia) E) as [LO SP].
    assert (G : forall i v, nth_error os i = Some (Some v) -> nonnegative v).
    { induction i as [i IH] using lt_wf_ind. intros v Hv. assert (Hi : (i < length xs)%nat) by (rewrite <- LO; apply nth_error_Some; congruence).
      destruct (nth_error xs i) as [x|] eqn:Ex; [|apply nth_error_None in Ex; lia]. assert (SPi := SP i x Ex).
      destruct (before None os i) as [q|] eqn:B.
      - destruct SPi as (w & -> & EO). rewrite EO in Hv. apply some_inj, some_inj in Hv. subst v.
        assert (P : nonnegative q).
        { destruct i as [|j]; [discriminate|]. cbn [before] in B. destruct (nth_error os j) as [oj|] eqn:Ej; [|discriminate]. cbn [join] in B. subst oj. exact (IH j ltac:(lia) _ Ej). }
        assert (Wn : nonnegative w) by (apply H; eapply nth_error_In; exact Ex).
        apply nz_nonneg. apply (plus_nz log10); (apply (mult_nz log10); [assumption|apply (nonneg_nz log10); assumption]).
      - rewrite SPi in Hv. apply some_inj in Hv. unfold sma_out in Hv. destruct (Nat.eqb_spec len 1); [lia|].
        destruct (window len (firstn (S i) xs)) as [ws|] eqn:Wn; [|discriminate]. cbn [option_map] in Hv. apply some_inj in Hv. subst v.
        apply nz_nonneg. left. apply (div_pz log10); [|apply (pz_fZ log10); lia].
        destruct (proj1 (window_iff len xs i ltac:(lia) Hi) (ex_intro _ ws Wn)) as [Q K].
        unfold rsum. rewrite (PropTa3.firstn_S_nth xs i x Ex), removelast_last, newest_snoc. cbn [join].
        assert (A : pz (racc len (firstn i xs))).
        { apply racc_pz; [lia|intros v Hv; apply H; rewrite <- (firstn_skipn i xs); apply in_or_app; left; exact Hv|].
          intros j v Hj Ej. rewrite firstn_length_le in Hj by lia. rewrite nth_error_firstn_lt in Ej by lia. apply (Pre j v); [|exact Ej].
          (* the window before this one was not full, so its oldest value is missing *)
          destruct i as [|i]; [lia|]. cbn [before] in B. destruct (nth_error xs i) as [y|] eqn:Ey; [|apply nth_error_None in Ey; lia].
          assert (SPj := SP i y Ey). destruct (before None os i) as [r|] eqn:Bj; [destruct SPj as (w & _ & EO); rewrite EO in B; discriminate B|].
          rewrite SPj in B. cbn [join] in B. unfold sma_out in B. destruct (Nat.eqb_spec len 1); [lia|].
          destruct (window len (firstn (S i) xs)) as [us|] eqn:Wi; [discriminate B|].
          destruct (Nat.lt_ge_cases j p) as [J|J]; [exact J|exfalso].
          destruct (proj2 (window_iff len xs i ltac:(lia) ltac:(lia))) as [us Hus]; [|congruence]. split; [lia|]. intros k Hk.
          destruct (nth_error xs (S i - len + k)) as [[z|]|] eqn:Ez; [exists z; reflexivity| |apply nth_error_None in Ez; lia].
          destruct (Nat.lt_ge_cases (S i - len + k) p) as [J2|J2]; [lia|]. exfalso. exact (Post _ J2 Ez). }
        destruct x as [x|]; [|exact A]. cbn [oadd]. apply (plus_pz log10); [exact A|]. apply (nonneg_nz log10), H. eapply nth_error_In; exact Ex. }
    intros v Hv. apply In_nth_error in Hv. destruct Hv as [i Hi]. exact (G i v Hi).
  Qed.
  Lemma vols_nonneg (f : option f64 -> option f64 -> option f64 -> option f64) len vs : (1 <= len)%nat -> (Z.of_nat len <= 2 ^ 53)%Z ->
    (forall p v s, f (Some p) (Some v) s = s \/ f (Some p) (Some v) s = Some zero) -> (forall v s, f None v s = None) ->
    let xs := zip3 f (None :: map Some vs) (map Some vs) (each_prefix (stdev_out true len) (map Some vs)) in
    all_values nonnegative xs /\ exists p, (forall j v, (j < p)%nat -> nth_error xs j = Some (Some v) -> v = zero) /\ (forall j, (p <= j)%nat -> nth_error xs j <> Some None).
  Proof.
    intros L L53 D D0 xs.
    assert (SD : all_values nonnegative (each_prefix (stdev_out true len) (map Some vs))).
    { apply (C107_dispersion log10 len true ctx6 (map Some vs) _ L L53). right. exact (makes_run _ _ _ _ ctx6 _ (stdev_makes true len L) I). }
    split.
    - intros v Hv. apply In_nth_error in Hv. destruct Hv as [i E]. apply zip3_inv in E. destruct E as (a & b & s & Ea & Eb & Es & E).
      destruct i as [|i]; [injection Ea as <-; rewrite D0 in E; discriminate|]. cbn [nth_error] in Ea. rewrite nth_error_map in Ea, Eb.
      destruct (nth_error vs i) as [p|]; [|discriminate]. destruct (nth_error vs (S i)) as [v'|]; [|discriminate]. injection Ea as <-. injection Eb as <-.
      destruct (D p v' s) as [Q|Q]; rewrite Q in E; [|apply some_inj in E; subst v; right; reflexivity].
      subst s. apply SD. eapply nth_error_In; exact Es.
    - exists (Nat.max 1 (len - 1)). split.
      + intros i v Hi E. apply zip3_inv in E. destruct E as (a & b & s & Ea & Eb & Es & E).
        destruct i as [|i]; [injection Ea as <-; rewrite D0 in E; discriminate|]. cbn [nth_error] in Ea. rewrite nth_error_map in Ea, Eb.
        destruct (nth_error vs i) as [p|]; [|discriminate]. destruct (nth_error vs (S i)) as [v'|]; [|discriminate]. injection Ea as <-. injection Eb as <-.
        destruct (D p v' s) as [Q|Q]; rewrite Q in E; [|apply some_inj in E; exact E].
        apply nth_each in Es. destruct Es as [Hl ->]. unfold stdev_out in E. destruct (Nat.eqb_spec len 1); [lia|].
        unfold window in E. rewrite firstn_length_le in E by lia. destruct (Nat.leb_spec len (S (S i))); [lia|]. discriminate E.
      + intros j Hj E. destruct (@dev_gaps f64 N128 f len vs j D E); lia.
  Qed.
  Lemma share_of (u l : f64) : nonnegative u -> nonnegative l -> feqb u (fneg l) = false ->
    between (f64_ofZ 0) (f64_ofZ 100) (fmul (fdiv u (fadd u l)) (f64_ofZ 100)).
  Proof.
    intros U V Z. apply (hundred log10 _ 0 1); [lia..|]. change (feqb u (fneg l)) with (Beqb u (Bopp l)) in Z.
    change (between zero one (Bdiv mode_NE u (Bplus mode_NE u l))).
    destruct U as [N|U]; [left; destruct u; try discriminate; reflexivity|]. destruct V as [N|V]; [left; destruct l; try discriminate; destruct u as [[]|[]| |[] m e H]; reflexivity|].
    destruct (plus_grows u l (az_nn u U) (az_nn l V)) as [P1 P2].
    assert (Q : Beqb (Bplus mode_NE u l) zero = false).
    { destruct (Bltb zero u) eqn:U0; [exact (not_zero u _ U0 P1)|]. destruct (Bltb zero l) eqn:V0; [exact (not_zero l _ V0 P2)|].
      destruct u as [[]|[]| |[] m e H]; try discriminate U; try discriminate U0; destruct l as [[]|[]| |[] m' e' H']; try discriminate V; try discriminate V0; discriminate Z. }
    assert (W : nonnegative (Bplus mode_NE u l)). { right. exact (nn_trans log10 zero u _ U P1). }
    apply between_above; [reflexivity..|]. split.
    - apply (proj1 (share_sign u _ W Q)). apply le_not_above, U.
    - apply (proj1 (share_high u _ W Q)). apply le_not_above, P1.
  Qed.
  Theorem C128_volatility_index len ma c src vs os : (1 <= len)%nat -> (1 <= ma)%nat -> (Z.of_nat len <= 2 ^ 53)%Z -> (Z.of_nat ma <= 2 ^ 32)%Z ->
    feeds c src (map Some vs) -> run_new (rvoli_new src len ma) rvoli_step c (ticks (length vs)) = Ok os ->
    all_values (between (f64_ofZ 0) (f64_ofZ 100)) os.
  Proof.
    intros L M L53 M32 H E. rewrite C64_volatility in E by assumption. pose proof H as G; unfold feeds in G. rewrite map_length in G. rewrite G in E. cbn [rbind] in E.
    rewrite (makes_run _ _ _ _ c _ (stdev_makes true len L) I) in E. cbn [rbind] in E. change (ema_new ma) with (ema_with_alpha ma (ema_alpha_of ma)) in E.
    rewrite !(ema_with_alpha_run ma _ c _ M) in E.
    destruct (vols_nonneg up_dev len vs L L53 (@up_dev_or f64 N128) ltac:(reflexivity)) as (A1 & p & B1 & D1).
    destruct (vols_nonneg down_dev len vs L L53 (@down_dev_or f64 N128) ltac:(reflexivity)) as (A2 & p' & B2 & D2).
    destruct (ema_runs ma _ (zip3 up_dev _ _ _)) as [us|] eqn:EU; [|discriminate]. cbn [rbind] in E.
    destruct (ema_runs ma _ (zip3 down_dev _ _ _)) as [ls|] eqn:EL; [|discriminate]. cbn [rbind] in E. injection E as <-.
    assert (W := ema_weight log10 ma M M32).
    assert (NU := ema_runs_nonneg ma _ _ us p M ltac:(lia) W A1 B1 D1 EU). assert (NL := ema_runs_nonneg ma _ _ ls p' M ltac:(lia) W A2 B2 D2 EL).
    intros v Hv. unfold zip in Hv. apply in_map_iff in Hv. destruct Hv as ([u l] & E & I). cbn [fst snd] in E. unfold up_share in E.
    destruct u as [u|]; [|discriminate]. destruct l as [l|]; [|discriminate]. destruct (feqb u (fneg l)) eqn:Z; [discriminate|]. apply some_inj in E. subst v.
    apply share_of; [apply NU; exact (in_combine_l _ _ _ _ I)|apply NL; exact (in_combine_r _ _ _ _ I)|exact Z].
  Qed.
End Ranges2.

(** ** Three ranges that rounding breaks.
    In exact arithmetic the Relative Vigor Index and the Chaikin Money Flow
    stay between -1 and 1 and the Ultimate Oscillator between 0 and 100
    (C63, C54, C56).  Their running sums keep rounding residues of the bars
    that have left the window, and on quiet bars the residues are all that is left. *)
Definition tenths (x : Z * Z * Z * Z * Z) : bar f64 :=
  let '(o, h, l, c, v) := x in mkBar (Some (lit o 10)) (Some (lit h 10)) (Some (lit l 10)) (Some (lit c 10)) (Some (lit v 10)).
Definition on_tenths {A : Type} (bs : list (Z * Z * Z * Z * Z)) (go : ctx f64 -> list unit -> res (list A)) : res (list A) :=
  c <- ctx_over (map tenths bs) ;; go c (ticks (length bs)).
Definition vigor_bars : list (Z * Z * Z * Z * Z) := ([(11, 12, 6, 12, 10); (26, 27, 18, 18, 10); (4, 4, 2, 2, 10)] ++ repeat (2, 2, 2, 2, 10) 9)%Z.
Definition flow_bars : list (Z * Z * Z * Z * Z) := ([(2, 2, 1, 1, 4); (21, 21, 18, 20, 2); (3, 3, 2, 2, 7); (2, 2, 2, 2, 0); (2, 2, 2, 2, 3); (2, 2, 2, 2, 1)] ++ repeat (2, 2, 2, 2, 0) 5)%Z.
Definition ultimate_bars : list (Z * Z * Z * Z * Z) := ([(15, 20, 15, 16, 10); (9, 9, 1, 4, 10); (21, 25, 19, 25, 10); (20, 20, 19, 19, 10); (8, 9, 8, 8, 10); (2, 3, 1, 3, 10)] ++ repeat (3, 3, 3, 3, 10) 8)%Z.
Theorem C128_vigor_escapes : last_is (os <- on_tenths vigor_bars (run_new (rvgi_new 2) rvgi_step) ;; Ok (map fst os)) (q (-9)) = true.
Proof. vm_compute. reflexivity. Qed.
Theorem C128_money_flow_escapes : last_is (on_tenths flow_bars (run_new (cmf_new 2) cmf_step)) (q (-4)) = true.
Proof. vm_compute. reflexivity. Qed.
Theorem C128_ultimate_escapes : last_is (on_tenths ultimate_bars (run_new (uo_new 2 3 4) uo_step)) (q (-425)) = true.
Proof. vm_compute. reflexivity. Qed.
Definition fitsb (b : bar f64) : bool :=
  match b_open b, b_high b, b_low b, b_close b with
  | Some o, Some h, Some l, Some c => Bleb l o && Bleb o h && (Bleb l c && Bleb c h)
  | _, _, _, _ => false end.
Lemma fitsb_ok bs : forallb fitsb bs = true -> Forall consistent_bar bs.
Proof.
  intros H. apply Forall_forall. intros b I. rewrite forallb_forall in H. specialize (H b I). unfold fitsb in H.
  destruct (b_open b) as [o|] eqn:E1; [|discriminate]. destruct (b_high b) as [h|] eqn:E2; [|discriminate]. destruct (b_low b) as [l|] eqn:E3; [|discriminate]. destruct (b_close b) as [c|] eqn:E4; [|discriminate].
  apply andb_prop in H. destruct H as [H H']. apply andb_prop in H. apply andb_prop in H'. exists o, h, l, c. unfold consistent_bar. tauto.
Qed.
Example C128_escape_bars : Forall consistent_bar (map tenths vigor_bars) /\ Forall consistent_bar (map tenths flow_bars) /\ Forall consistent_bar (map tenths ultimate_bars).
Proof. split; [|split]; apply fitsb_ok; vm_compute; reflexivity. Qed.
(** values on both sides of the middle. *)
Example C128_ex : feeds ctx6 (src_box SClose) (map b_close bars6) /\ Bleb (f64_ofZ 0) (q 2) = true /\
  spanning (fun o => o) (on_bars6 (bb_new (src_box SClose) 3 (q 1)) bbpb_step) 0 1 = true /\
  spanning (fun o => o) (on_bars6 (bb_new (src_box SClose) 3 (q 1)) bbw_step) 1 0 = true /\
  spanning (fun o => o) (on_bars6 (rvoli_new (src_box SClose) 2 2) rvoli_step) 40 60 = true.
Proof. split; [reflexivity|]. split; [vm_compute; reflexivity|]. split; [vm_compute; reflexivity|]. split; vm_compute; reflexivity. Qed.
