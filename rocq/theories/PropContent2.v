(** * PropContent2: C51-C57. *)
From Flocq Require Import Core IEEE754.BinarySingleNaN Plus_error.
From Verif Require Import PTa4 PExact3 PIeee Inst PropTa2 PropTa3.

Lemma some_inj {A} (x y : A) : Some x = Some y -> x = y.
Proof. congruence. Qed.
Lemma last_In {A} n (l : list A) x : (1 <= n)%nat -> In x (lastn n (l ++ [x])).
Proof. intros N. destruct n as [|n]; [lia|]. rewrite lastn_S_snoc. apply in_or_app. right. left. reflexivity. Qed.
Lemma window_has_newest {A} n (l : list A) i x w : (1 <= n)%nat -> nth_error l i = Some x ->
  full_window n (firstn (S i) l) = Some w -> In x w.
Proof.
  intros N H W. apply full_window_Some in W. destruct W as (-> & _). rewrite (firstn_S_nth _ _ _ H). apply last_In. exact N.
Qed.
Lemma In_firstn_all {A} (P : A -> Prop) n l x : Forall P l -> In x (firstn n l) -> P x.
Proof. intros H I. rewrite Forall_forall in H. apply H. eapply firstn_In; exact I. Qed.

(** ** C51 *)
Section C51.
  Context {F : Type} {NF : Num F}.
  Local Open Scope num_scope.
  Theorem C51_channels len (c : ctx F) bs : (1 <= len)%nat -> fresh_over c bs ->
    exists us ls os, run_new (highest_new len) highest_step c (map b_high bs) = Ok us /\
      run_new (lowest_new len) lowest_step c (map b_low bs) = Ok ls /\
      run_new (don_new len) don_step c (ticks (length bs)) = Ok os /\
      os = zip (fun u l => (u, match u, l with Some u, Some l => Some ((u + l) / fZ 2) | _, _ => None end, l)) us ls.
  Proof.
    intros L H. rewrite (don_run len c bs L H).
    rewrite (makes_run _ _ _ _ c _ (highest_makes len L) I), (makes_run _ _ _ _ c _ (lowest_makes len L) I).
    rewrite (fresh_c_index _ _ H), !each_prefix_of_map.
    do 3 eexists. split; [reflexivity|]. split; [reflexivity|]. split; [reflexivity|].
    rewrite zip_each. apply each_prefix_ext. intros p. unfold don_out, don_basis, ps_add.
    destruct (highest_out _ _ _), (lowest_out _ _ _); reflexivity.
  Qed.
End C51.
Section C51o.
  Context {F : Type} {NF : Num F} {OF : OrdNum F}.
  Local Open Scope num_scope.
  (** The upper line is never below the bar's high nor the lower one above its
      low (f64 included). *)
  Theorem C51_encloses len (c : ctx F) bs os i b h l u m d : (1 <= len)%nat -> fresh_over c bs ->
    no_nan (present (map b_high bs)) -> no_nan (present (map b_low bs)) ->
    run_new (don_new len) don_step c (ticks (length bs)) = Ok os ->
    nth_error os i = Some (Some u, m, Some d) -> nth_error bs i = Some b -> b_high b = Some h -> b_low b = Some l ->
    (h <=? u) = true /\ (d <=? l) = true.
  Proof.
    intros L H NH NL R Ho Hb Eh El.
    assert (Z : c_index c = 0%nat) by (eapply fresh_c_index; exact H).
    destruct (C51_channels len c bs L H) as (us & ls & os' & R1 & R2 & R3 & E). rewrite R in R3. injection R3 as <-.
    destruct (C18_highest len c (map b_high bs) L Z NH) as (us' & R1' & LU & SU). rewrite R1 in R1'. injection R1' as <-.
    destruct (C18_lowest len c (map b_low bs) L Z NL) as (ls' & R2' & LL & SL). rewrite R2 in R2'. injection R2' as <-.
    subst os. unfold zip in Ho. rewrite nth_error_map in Ho.
    destruct (nth_error (combine us ls) i) as [[u' d']|] eqn:N; [|discriminate]. injection Ho as -> _ ->.
    assert (NU : nth_error us i = Some (Some u) /\ nth_error ls i = Some (Some d)).
    { clear - N. revert i ls N. induction us as [|a us IH]; intros [|i] [|b ls] N; cbn in N; try discriminate.
      - injection N as -> ->. auto.
      - apply IH in N. exact N. }
    destruct NU as [NU ND]. specialize (SU _ _ NU). specialize (SL _ _ ND).
    destruct (S i <? len)%nat; [discriminate|].
    destruct SU as [_ SU]. destruct SL as [_ SL]. rewrite Forall_forall in SU, SL.
    assert (IH' : forall (k : bar F -> option F) v, k b = Some v -> In v (present (lastn len (firstn (S i) (map k bs))))).
    { intros k v E. rewrite (firstn_S_nth (map k bs) i (Some v)) by (rewrite nth_error_map, Hb; cbn; congruence).
      destruct len as [|n]; [lia|]. rewrite lastn_S_snoc, PExact.present_app'. apply in_or_app. right. left. reflexivity. }
    split; [apply SU, (IH' b_high h Eh)|apply SL, (IH' b_low l El)].
  Qed.
End C51o.
Section C51x.
  Local Open Scope R_scope.
  Theorem C51_exact len (c : ctx xr) rs : (1 <= len)%nat -> fresh_over c (map bar_of rs) ->
    exists os, run_new (don_new len) don_step c (ticks (length rs)) = Ok os /\ length os = length rs /\
    forall i r o, nth_error rs i = Some r -> nth_error os i = Some o ->
      match full_window len (firstn (S i) rs) with
      | None => o = (None, None, None)
      | Some w => exists u l, o = (Some (Fin u), Some (Fin ((u + l) / 2)), Some (Fin l)) /\
          is_max u (map rh w) /\ is_min l (map rl w) /\ rh r <= u /\ l <= rl r /\
          (rl r <= rh r -> l <= (u + l) / 2 <= u)
      end.
  Proof.
    intros L H. pose proof (don_run len c _ L H) as R. rewrite map_length in R. rewrite R.
    eexists; split; [reflexivity|]. split; [rewrite length_each_prefix, map_length; reflexivity|].
    intros i r o Hr Ho. apply nth_each in Ho. destruct Ho as [_ ->]. unfold don_out.
    rewrite firstn_map, (col_full b_high rh), (col_full b_low rl), hi_full, lo_full by reflexivity.
    rewrite !full_window_map. destruct (full_window len (firstn (S i) rs)) as [w|] eqn:W; [|reflexivity].
    cbn [option_map]. pose proof (window_has_newest _ _ _ _ _ L Hr W) as IR.
    destruct w as [|r0 w0] eqn:EW; [destruct IR|]. rewrite <- EW in *.
    destruct (Rmaximum (map rh w)) as [u|] eqn:EU; [|subst w; discriminate EU].
    destruct (Rminimum (map rl w)) as [l|] eqn:EL; [|subst w; discriminate EL].
    apply Rmaximum_spec in EU. apply Rminimum_spec in EL.
    exists u, l. split; [unfold don_basis; cbn [ps_add option_map]; rewrite fin_add, fin_Z, fin_div by lra; reflexivity|].
    split; [exact EU|]. split; [exact EL|].
    assert (A : rh r <= u) by (destruct EU as [_ EU]; rewrite Forall_forall in EU; apply EU, in_map; exact IR).
    assert (B : l <= rl r) by (destruct EL as [_ EL]; rewrite Forall_forall in EL; apply EL, in_map; exact IR).
    split; [exact A|]. split; [exact B|]. lra.
  Qed.
End C51x.
Example C51_ex : gives (fun a b => same_opt (fst (fst a)) (fst (fst b)) && same_opt (snd (fst a)) (snd (fst b)) && same_opt (snd a) (snd b))
    (run_new (don_new 2) don_step ctx6 (ticks 6))
    [(None, None, None); (Some (q 14), Some (lit 23 2), Some (q 9)); (Some (q 15), Some (lit 25 2), Some (q 10)); (Some (q 15), Some (lit 23 2), Some (q 8));
     (Some (q 13), Some (q 10), Some (q 7)); (Some (q 16), Some (lit 23 2), Some (q 7))] = true.
Proof. vm_compute. reflexivity. Qed.

(** ** C52 *)
Section C52.
  Context {F : Type} {NF : Num F}.
  Local Open Scope num_scope.
  Theorem C52_williams len (c : ctx F) src ss bs : (1 <= len)%nat -> length ss = length bs -> feeds c src ss -> fresh_over c bs ->
    exists us ls os, run_new (highest_new len) highest_step c (map b_high bs) = Ok us /\
      run_new (lowest_new len) lowest_step c (map b_low bs) = Ok ls /\
      run_new (wpr_new src len) wpr_step c (ticks (length bs)) = Ok os /\
      os = zip3 (fun s u l => match s, u, l with
                              | Some s, Some u, Some l => if u - l ==? fZ 0 then None else Some ((s - u) / (u - l) * fZ 100)
                              | _, _, _ => None end) ss us ls.
  Proof.
    intros L LN HF H.
    assert (E1 : map fst (combine ss bs) = ss) by (clear - LN; revert bs LN; induction ss; intros [|b bs] LN; cbn in *; try lia; f_equal; auto).
    assert (E2 : map snd (combine ss bs) = bs) by (clear - LN; revert bs LN; induction ss; intros [|b bs] LN; cbn in *; try lia; f_equal; auto).
    assert (E3 : length (combine ss bs) = length bs) by (rewrite combine_length; lia).
    set (zs := combine ss bs) in *. clearbody zs. subst ss bs. rewrite map_length.
    rewrite (wpr_run len c src zs L HF H).
    rewrite (makes_run _ _ _ _ c _ (highest_makes len L) I), (makes_run _ _ _ _ c _ (lowest_makes len L) I).
    rewrite (fresh_c_index _ _ H).
    do 3 eexists. split; [reflexivity|]. split; [reflexivity|]. split; [reflexivity|].
    rewrite !map_map, !each_prefix_of_map.
    replace (map fst zs) with (each_prefix (cur fst) zs) by (rewrite each_prefix_cur; reflexivity). rewrite zip3_each. apply each_prefix_ext. intros p.
    unfold wpr_out, wpr_value, times100, ps_div, ps_diff.
    destruct (cur fst p), (highest_out len 0 (map (fun z => b_high (snd z)) p)), (lowest_out len 0 (map (fun z => b_low (snd z)) p)); try reflexivity.
    destruct (_ ==? _); reflexivity.
  Qed.
End C52.
Section C52x.
  Local Open Scope R_scope.
  Theorem C52_exact len (c : ctx xr) src vs rs : (1 <= len)%nat -> length vs = length rs ->
    feeds c src (full vs) -> fresh_over c (map bar_of rs) ->
    exists os, run_new (wpr_new src len) wpr_step c (ticks (length rs)) = Ok os /\ length os = length rs /\
    forall i v r o, nth_error vs i = Some v -> nth_error rs i = Some r -> nth_error os i = Some o ->
      match full_window len (firstn (S i) rs) with
      | None => o = None
      | Some w => exists u l, is_max u (map rh w) /\ is_min l (map rl w) /\
          (u = l -> o = None) /\
          (u <> l -> o = Some (Fin (100 * (v - u) / (u - l))) /\
             (rl r <= v <= rh r -> -100 <= 100 * (v - u) / (u - l) <= 0))
      end.
  Proof.
    intros L LN HF H.
    assert (LN' : length (full vs) = length (map bar_of rs)) by (unfold full; rewrite !map_length; exact LN).
    destruct (C52_williams len c src (full vs) _ L LN' HF H) as (us & ls & os & R1 & R2 & R3 & E).
    rewrite map_length in R3. exists os. split; [exact R3|].
    assert (Z : c_index c = 0%nat) by (eapply fresh_c_index; exact H).
    rewrite (makes_run _ _ _ _ c _ (highest_makes len L) I) in R1. injection R1 as <-.
    rewrite (makes_run _ _ _ _ c _ (lowest_makes len L) I) in R2. injection R2 as <-.
    rewrite Z, (col_full b_high rh), (col_full b_low rl) in E by reflexivity.
    split.
    { subst os. unfold zip3, zip. rewrite map_length, !combine_length, !length_each_prefix. unfold full. rewrite !map_length. lia. }
    intros i v r o Hv Hr Ho. subst os. unfold zip3, zip in Ho. rewrite nth_error_map in Ho.
    assert (Li : (i < length rs)%nat) by (apply nth_error_Some; congruence).
    rewrite (nth_error_combine _ _ i (Some (Fin v), highest_out len 0 (firstn (S i) (full (map rh rs)))) (lowest_out len 0 (firstn (S i) (full (map rl rs))))) in Ho.
    2:{ apply nth_error_combine; [unfold full; rewrite (map_nth_error _ _ _ Hv); reflexivity|].
        apply nth_error_each_prefix. unfold full. rewrite !map_length. exact Li. }
    2:{ apply nth_error_each_prefix. unfold full. rewrite !map_length. exact Li. }
    cbn [option_map fst snd] in Ho. apply some_inj in Ho. subst o.
    assert (FF : forall g : rbar5 -> R, firstn (S i) (full (map g rs)) = full (map g (firstn (S i) rs))).
    { intros g. unfold full. rewrite !firstn_map. reflexivity. }
    rewrite !FF, hi_full, lo_full, !full_window_map.
    destruct (full_window len (firstn (S i) rs)) as [w|] eqn:W; [|reflexivity]. cbn [option_map].
    pose proof (window_has_newest _ _ _ _ _ L Hr W) as IR.
    destruct w as [|r0 w0] eqn:EW; [destruct IR|]. rewrite <- EW in *.
    destruct (Rmaximum (map rh w)) as [u|] eqn:EU; [|subst w; discriminate EU].
    destruct (Rminimum (map rl w)) as [l|] eqn:EL; [|subst w; discriminate EL].
    apply Rmaximum_spec in EU. apply Rminimum_spec in EL. exists u, l. split; [exact EU|]. split; [exact EL|].
    assert (A : rh r <= u) by (destruct EU as [_ EU]; rewrite Forall_forall in EU; apply EU, in_map; exact IR).
    assert (B : l <= rl r) by (destruct EL as [_ EL]; rewrite Forall_forall in EL; apply EL, in_map; exact IR).
    cbn [option_map]. rewrite fin_sub, fin_Z, fin_eq. destruct (Reqb_spec (u - l) 0) as [Q|Q].
    - split; [reflexivity|]. lra.
    - split; [lra|]. intros N. rewrite fin_sub, fin_div, fin_Z, fin_mul by exact Q. split.
      + do 2 f_equal. field. exact Q.
      + intros V. assert (P : 0 < u - l) by lra.
        split; [apply (Rmult_le_reg_r (u - l)); [exact P|]|apply (Rmult_le_reg_r (u - l)); [exact P|]];
          unfold Rdiv; rewrite Rmult_assoc, Rinv_l, ?Rmult_0_l by lra; lra.
  Qed.
End C52x.
Example C52_ex : feeds ctx6 (src_box SClose) (map b_close bars6) /\
  gives same_opt (run_new (wpr_new (src_box SClose) 2) wpr_step ctx6 (ticks 6))
    [None; Some (q (-20)); Some (q (-60)); Some (fmul (fdiv (q (-6)) (q 7)) (q 100)); Some (q (-50)); Some (fmul (fdiv (q (-1)) (q 9)) (q 100))] = true.
Proof. split; [reflexivity|vm_compute; reflexivity]. Qed.

(** ** C53 *)
Section C53.
  Context {F : Type} {NF : Num F}.
  Local Open Scope num_scope.
  Theorem C53_bop (c : ctx F) bs : fresh_over c bs ->
    exists os, run bop_step c tt (ticks (length bs)) = Ok os /\ length os = length bs /\
    forall i b, nth_error bs i = Some b ->
      nth_error os i = Some match b_open b, b_high b, b_low b, b_close b with
                            | Some o, Some h, Some l, Some cl => if h ==? l then None else Some ((cl - o) / (h - l))
                            | _, _, _, _ => None end.
  Proof.
    intros H. rewrite (bop_run c bs H). eexists; split; [reflexivity|]. split; [apply length_each_prefix|].
    intros i b N. rewrite nth_error_each_prefix by (apply nth_error_Some; congruence).
    rewrite (firstn_S_nth _ _ _ N). unfold bop_out. rewrite !cur_snoc. unfold bop_value.
    destruct (b_close b), (b_open b), (b_high b), (b_low b); reflexivity.
  Qed.
End C53.
Theorem C53_exact_range r (v : xr) : consistent r -> rh r <> rl r ->
  v = ((Fin (rc r) - Fin (ro r)) / (Fin (rh r) - Fin (rl r)))%num ->
  exists x, v = Fin x /\ x = ((rc r - ro r) / (rh r - rl r))%R /\ (-1 <= x <= 1)%R.
Proof.
  intros [C1 C2] N ->. rewrite !fin_sub, fin_div by lra. eexists. split; [reflexivity|]. split; [reflexivity|].
  assert (P : (0 < rh r - rl r)%R) by lra.
  split; apply (Rmult_le_reg_r (rh r - rl r)); try exact P; unfold Rdiv; rewrite Rmult_assoc, Rinv_l by lra; lra.
Qed.
Section C53i.
  Variable log10 : f64 -> f64.
  #[local] Instance N53 : Num f64 := IEEE log10.
  #[local] Instance O53 : OrdNum f64 := IEEEOrd log10.
  Open Scope R_scope.
  Notation fexp64 := (SpecFloat.fexp 53 1024).
  Notation rnd r := (round radix2 fexp64 (round_mode mode_NE) r).
  Lemma finite_minus (x y : f64) : is_finite x = true -> is_finite y = true -> is_finite (Bminus mode_NE x y) = true ->
    B2R (Bminus mode_NE x y) = rnd (B2R x - B2R y) /\ Rabs (rnd (B2R x - B2R y)) < bpow radix2 1024.
  Proof.
    intros Fx Fy Fd. pose proof (Bminus_correct 53 1024 _ _ mode_NE x y Fx Fy) as C.
    destruct (Rlt_bool_spec (Rabs (rnd (B2R x - B2R y))) (bpow radix2 1024)) as [L|L].
    - destruct C as [C _]. auto.
    - destruct C as [C _]. exfalso. destruct (Bminus mode_NE x y); cbn in C, Fd; try discriminate.
      all: unfold binary_overflow in C; cbn in C; try discriminate C.
      all: destruct (Bsign x); discriminate C.
  Qed.
  Lemma minus_mono (x y x' y' : f64) : is_finite x = true -> is_finite y = true -> is_finite x' = true -> is_finite y' = true ->
    is_finite (Bminus mode_NE x' y') = true -> Rabs (B2R x - B2R y) <= B2R x' - B2R y' ->
    is_finite (Bminus mode_NE x y) = true /\ Rabs (B2R (Bminus mode_NE x y)) <= B2R (Bminus mode_NE x' y').
  Proof.
    intros Fx Fy Fx' Fy' Fd A. destruct (finite_minus x' y' Fx' Fy' Fd) as [E' B'].
    assert (VE : Valid_exp fexp64) by apply (fexp_correct 53 1024), eq_refl.
    assert (M : Rabs (rnd (B2R x - B2R y)) <= rnd (B2R x' - B2R y')).
    { rewrite <- round_NE_abs by exact VE. apply round_le; [exact VE|apply valid_rnd_N|exact A]. }
    pose proof (Bminus_correct 53 1024 _ _ mode_NE x y Fx Fy) as C.
    rewrite Rlt_bool_true in C.
    - destruct C as (C & F & _). split; [exact F|]. rewrite C, E'. exact M.
    - apply Rle_lt_trans with (1 := M). apply Rle_lt_trans with (2 := B'). apply Rle_abs.
  Qed.
  Lemma le_fin (x y z : f64) : is_finite x = true -> is_finite z = true -> Bleb x y = true -> Bleb y z = true -> is_finite y = true /\ B2R x <= B2R y <= B2R z.
  Proof.
    intros Fx Fz A B. assert (Fy : is_finite y = true).
    { destruct y as [s|[|]| |s m e ?]; try reflexivity.
      - destruct x as [s'|[|]| |[|] m' e' ?]; discriminate.
      - destruct z as [s'|[|]| |[|] m' e' ?]; discriminate.
      - destruct x as [s'|[|]| |[|] m' e' ?]; discriminate. }
    split; [exact Fy|]. rewrite Bleb_correct in A, B by assumption. split.
    - destruct (Rle_bool_spec (B2R x) (B2R y)); [assumption|discriminate].
    - destruct (Rle_bool_spec (B2R y) (B2R z)); [assumption|discriminate].
  Qed.
  (** In f64, for every consistent bar whose range does not overflow. *)
  Theorem C53_f64_range (o h l cl : f64) : is_finite l = true -> is_finite h = true ->
    Bleb l o = true -> Bleb o h = true -> Bleb l cl = true -> Bleb cl h = true -> feqb h l = false ->
    is_finite (fsub h l) = true ->
    fleb (fZ (-1)) (fdiv (fsub cl o) (fsub h l)) = true /\ fleb (fdiv (fsub cl o) (fsub h l)) (fZ 1) = true.
  Proof.
    intros Fl Fh A1 A2 A3 A4 NE FD.
    destruct (le_fin l o h Fl Fh A1 A2) as [Fo Bo]. destruct (le_fin l cl h Fl Fh A3 A4) as [Fc Bc].
    destruct (minus_mono cl o h l Fc Fo Fh Fl FD) as [FN BN]; [apply Rabs_le; lra|].
    destruct (finite_minus h l Fh Fl FD) as [ED _].
    assert (NE' : B2R h <> B2R l).
    { change (Beqb h l = false) in NE. rewrite Beqb_correct in NE by assumption. destruct (Req_bool_spec (B2R h) (B2R l)); [discriminate|assumption]. }
    assert (NZ : B2R (Bminus mode_NE h l) <> 0).
    { rewrite ED. unfold Rminus. rewrite <- B2R_Bopp. assert (VE : Valid_exp fexp64) by apply (fexp_correct 53 1024), eq_refl.
      assert (ME : Monotone_exp fexp64) by apply (fexp_monotone 53 1024).
      apply (round_plus_neq_0 radix2 fexp64 _ (B2R h) (B2R (Bopp l))); try apply generic_format_B2R. rewrite B2R_Bopp. lra. }
    pose proof (Rabs_pos (B2R (Bminus mode_NE cl o))) as P0.
    assert (PD : 0 < B2R (Bminus mode_NE h l)) by (change (fsub h l) with (Bminus mode_NE h l) in *; lra).
    destruct (fin_fZ log10 1) as [F1 V1]; [lia|]. destruct (fin_fZ log10 (-1)) as [F2 V2]; [lia|].
    apply (within_le log10); [exact F2|exact F1|].
    apply div_within; [exact FN|exact FD|exact NZ|].
    cbv [NF64 N53 fZ] in *. rewrite V1, V2. apply Rabs_le_inv in BN.
    change (fsub cl o) with (Bminus mode_NE cl o). change (fsub h l) with (Bminus mode_NE h l).
    split; apply (Rmult_le_reg_r (B2R (Bminus mode_NE h l))); try exact PD; unfold Rdiv; rewrite Rmult_assoc, Rinv_l by lra; lra.
  Qed.
  (** which is the case for all non-negative prices. *)
  Theorem C53_no_overflow (h l : f64) : is_finite l = true -> is_finite h = true ->
    Bleb (f64_ofZ 0) l = true -> Bleb l h = true -> is_finite (fsub h l) = true.
  Proof.
    intros Fl Fh A B. destruct (fin_fZ log10 0) as [F0 V0]; [lia|].
    destruct (le_fin _ l h F0 Fh A B) as [_ [B1 B2]]. cbv [NF64 N53 fZ] in *. cbn [fofZ IEEE] in *. rewrite V0 in B1.
    destruct (minus_within log10 (f64_ofZ 0) h h l Fh Fl) as [G _]; [|exact G]. rewrite V0. lra.
  Qed.
End C53i.
Example C53_ex : gives same_opt (run bop_step ctx6 tt (ticks 6))
  [Some (fdiv (q 1) (q 3)); Some (q 2 / q 4)%num; Some (fdiv (q (-1)) (q 3)); Some (fdiv (q (-3)) (q 5)); Some (q 1 / q 4)%num; Some (fdiv (q 5) (q 6))] = true.
Proof. vm_compute. reflexivity. Qed.
Example C53_hyp_ex : Bleb (q 8) (q 12) = true /\ Bleb (q 12) (q 13) = true /\ is_finite (fsub (q 13) (q 8)) = true /\ feqb (q 13) (q 8) = false.
Proof. vm_compute. auto. Qed.

(** ** C54 *)
Lemma Rsum_abs_le {A} (g k : A -> R) w : (forall r, In r w -> Rabs (g r) <= k r)%R -> (Rabs (Rsum (map g w)) <= Rsum (map k w))%R.
Proof.
  induction w as [|r w IH]; intros H; cbn; [rewrite Rabs_R0; lra|].
  eapply Rle_trans; [apply Rabs_triang|]. apply Rplus_le_compat; [apply H; left; reflexivity|apply IH; intros; apply H; right; assumption].
Qed.
Lemma ratio_abs a b : (Rabs a <= b -> b <> 0 -> -1 <= a / b <= 1)%R.
Proof.
  intros H N. assert (P : (0 < b)%R) by (pose proof (Rabs_pos a); lra). apply Rabs_le_inv in H.
  split; apply (Rmult_le_reg_r b); try exact P; unfold Rdiv; rewrite Rmult_assoc, Rinv_l by lra; lra.
Qed.
Lemma ratio_pos a b : (0 <= a <= b -> b <> 0 -> 0 <= a / b <= 1)%R.
Proof.
  intros H N. assert (P : (0 < b)%R) by lra.
  split; apply (Rmult_le_reg_r b); try exact P; unfold Rdiv; rewrite Rmult_assoc, Rinv_l by lra; lra.
Qed.
Section C54.
  Context {F : Type} {NF : Num F}.
  Local Open Scope num_scope.
  (** Money-flow volume of a bar. *)
  Definition money_flow (b : bar F) : option F :=
    match b_close b, b_high b, b_low b, b_volume b with
    | Some c, Some h, Some l, Some v =>
        if ((c ==? h) && (c ==? l)) || (h ==? l) then Some (fZ 0) else Some ((fZ 2 * c - l - h) / (h - l) * v)
    | _, _, _, _ => None
    end.
  (** [a / b], missing when [b] is zero. *)
  Definition quot (a b : option F) : option F :=
    match a, b with Some a, Some b => if b ==? fZ 0 then None else Some (a / b) | _, _ => None end.
  Theorem C54_cmf len (c : ctx F) bs : (1 <= len)%nat -> fresh_over c bs ->
    exists fs vs os, run_new (sum_new len) sum_step c (map money_flow bs) = Ok fs /\
      run_new (sum_new len) sum_step c (map b_volume bs) = Ok vs /\
      run_new (cmf_new len) cmf_step c (ticks (length bs)) = Ok os /\ os = zip quot fs vs.
  Proof.
    intros L H. rewrite (cmf_run len c bs L H), !(makes_run _ _ _ _ c _ (sum_makes len L) I), !each_prefix_of_map.
    do 3 eexists. repeat (split; [reflexivity|]). rewrite zip_each. reflexivity.
  Qed.
End C54.
Section C54x.
  Local Open Scope R_scope.
  Definition Rflow (r : rbar5) : R :=
    if Req_EM_T (rh r) (rl r) then 0 else ((rc r - rl r) - (rh r - rc r)) / (rh r - rl r) * rv r.
  Lemma flow_fin r : cmf_flow (bar_of r) = Some (Fin (Rflow r)).
  Proof.
    unfold cmf_flow, cmf_ad_value, Rflow. cbn [bar_of b_close b_high b_low b_volume]. rewrite !fin_eq, !fin_Z.
    destruct (Req_EM_T (rh r) (rl r)) as [E|E].
    - destruct (Reqb_spec (rh r) (rl r)); [|congruence]. rewrite orb_true_r. reflexivity.
    - destruct (Reqb_spec (rh r) (rl r)); [congruence|]. rewrite orb_false_r.
      destruct (Reqb_spec (rc r) (rh r)), (Reqb_spec (rc r) (rl r)); cbn [andb]; try congruence;
        rewrite fin_mul, !fin_sub, fin_div, fin_mul by lra; do 3 f_equal; f_equal; lra.
  Qed.
  Lemma flow_bound r : consistent r -> 0 <= rv r -> Rabs (Rflow r) <= rv r.
  Proof.
    intros [C1 C2] V. unfold Rflow. destruct (Req_EM_T (rh r) (rl r)) as [E|E]; [rewrite Rabs_R0; exact V|].
    rewrite Rabs_mult, (Rabs_pos_eq (rv r) V). rewrite <- (Rmult_1_l (rv r)) at 2. apply Rmult_le_compat_r; [exact V|].
    apply Rabs_le. apply ratio_abs; [apply Rabs_le; lra|lra].
  Qed.
  Theorem C54_exact len (c : ctx xr) rs : (1 <= len)%nat -> fresh_over c (map bar_of rs) ->
    exists os, run_new (cmf_new len) cmf_step c (ticks (length rs)) = Ok os /\ length os = length rs /\
    forall i o, nth_error os i = Some o ->
      match full_window len (firstn (S i) rs) with
      | None => o = None
      | Some w =>
          (Rsum (map rv w) = 0 -> o = None) /\
          (Rsum (map rv w) <> 0 -> o = Some (Fin (Rsum (map Rflow w) / Rsum (map rv w)))) /\
          (Rsum (map rv w) <> 0 -> Forall consistent w -> Forall (fun r => 0 <= rv r) w ->
             -1 <= Rsum (map Rflow w) / Rsum (map rv w) <= 1)
      end.
  Proof.
    intros L H. pose proof (cmf_run len c _ L H) as R. rewrite map_length in R. rewrite R.
    eexists; split; [reflexivity|]. split; [rewrite length_each_prefix, map_length; reflexivity|].
    intros i o Ho. apply nth_each in Ho. destruct Ho as [_ ->]. unfold cmf_out.
    rewrite firstn_map, (col_full b_volume rv), (col_full cmf_flow Rflow) by (try apply flow_fin; reflexivity).
    rewrite !full_warm. rewrite !(sum_warm len 0), ?full_window_map by exact L.
    destruct (full_window len (firstn (S i) rs)) as [w|] eqn:W; [|reflexivity]. cbn [option_map ps_div].
    rewrite fin_Z, fin_eq. destruct (Reqb_spec (Rsum (map rv w)) 0) as [E|E].
    - split; [reflexivity|]. split; [contradiction|]. intros N; contradiction.
    - split; [contradiction|]. split; [intros _; rewrite fin_div by exact E; reflexivity|].
      intros _ C V. apply ratio_abs; [|exact E]. apply Rsum_abs_le. intros r I.
      rewrite Forall_forall in C, V. apply flow_bound; auto.
  Qed.
End C54x.
Example C54_ex : gives same_opt (run_new (cmf_new 2) cmf_step ctx6 (ticks 3))
  [None; Some (fdiv (fadd (fmul (fdiv (q 1) (q 3)) (q 100)) (q 60)) (q 220)); Some (fdiv (q (60 - 90)) (q 210))] = true.
Proof. vm_compute. reflexivity. Qed.
Example C54_hyp_ex : consistent (mkRB 10 12 9 11 100) /\ (0 <= rv (mkRB 10 12 9 11 100))%R.
Proof. unfold consistent; cbn; lra. Qed.

(** ** C55 *)
Section C55.
  Context {F : Type} {NF : Num F}.
  Local Open Scope num_scope.
  (** Rise and fall between two consecutive values. *)
  Definition rise (prev cur : option F) : option F :=
    match prev, cur with Some p, Some v => Some (fmax (fZ 0) (v - p)) | _, _ => None end.
  Definition fall (prev cur : option F) : option F :=
    match prev, cur with Some p, Some v => Some (fabs (fmin (fZ 0) (v - p))) | _, _ => None end.
  (** [f] of each value and the one before it (missing for the first one). *)
  Definition with_prev {A} (f : option A -> option A -> option A) (xs : list (option A)) : list (option A) :=
    zip f (None :: xs) xs.
  Lemma with_prev_snoc {A} (f : option A -> option A -> option A) h x :
    with_prev f (h ++ [x]) = with_prev f h ++ [f (join (newest h)) x].
  Proof.
    unfold with_prev, zip. destruct h as [|y h _] using rev_ind; [reflexivity|].
    rewrite newest_snoc. cbn [join]. change (None :: (h ++ [y]) ++ [x]) with ((None :: h ++ [y]) ++ [x]).
    assert (E : forall (l m : list (option A)) t s, length l = S (length m) -> combine (l ++ t) (m ++ [s]) = combine l m ++ [(last l None, s)]).
    { induction l as [|a l IH]; intros [|b m] t s E; cbn in E; try lia.
      - destruct l; [cbn; rewrite combine_nil; reflexivity|cbn in E; lia].
      - cbn [app combine]. rewrite IH by lia. cbn [app]. destruct l; [cbn in E; lia|]. reflexivity. }
    rewrite E by (cbn [length]; rewrite app_length; lia). rewrite map_app. cbn [map fst snd]. f_equal.
    change (None :: h ++ [y]) with ((None :: h) ++ [y]). rewrite last_last. reflexivity.
  Qed.
  Lemma with_prev_each (f : option F -> option F -> option F) h : with_prev f h = each_prefix (fun p => f (join (ago 1 p)) (join (newest p))) h.
  Proof.
    induction h as [|x h IH] using rev_ind; [reflexivity|]. rewrite with_prev_snoc, each_prefix_snoc, IH, newest_snoc, ago1_snoc. reflexivity.
  Qed.
  Theorem C55_cmo len (c : ctx F) src xs : (2 <= len)%nat -> feeds c src xs ->
    exists us ds os, run_new (sum_new len) sum_step c (with_prev rise xs) = Ok us /\
      run_new (sum_new len) sum_step c (with_prev fall xs) = Ok ds /\
      run_new (cmo_new src len) cmo_step c (ticks (length xs)) = Ok os /\
      os = zip (fun u d => match u, d with Some u, Some d => if u ==? - d then None else Some (fZ 100 * (u - d) / (u + d)) | _, _ => None end) us ds.
  Proof.
    intros L H. rewrite (cmo_run len c src xs L H), !(makes_run _ _ _ _ c _ (sum_makes len ltac:(lia)) I), !with_prev_each, !each_prefix_each_prefix.
    do 3 eexists. repeat (split; [reflexivity|]). rewrite zip_each. apply each_prefix_ext. intros p. unfold cmo_out.
    unfold cmo_value.
    replace (each_prefix (fun h => cmo_up (momentum h)) p) with (each_prefix (fun h => rise (join (ago 1 h)) (join (newest h))) p).
    2:{ apply each_prefix_ext. intros h. unfold momentum, rise, cmo_up. destruct (join (newest h)), (join (ago 1 h)); reflexivity. }
    replace (each_prefix (fun h => cmo_down (momentum h)) p) with (each_prefix (fun h => fall (join (ago 1 h)) (join (newest h))) p); [reflexivity|].
    apply each_prefix_ext. intros h. unfold momentum, fall, cmo_down. destruct (join (newest h)), (join (ago 1 h)); reflexivity.
  Qed.
End C55.
