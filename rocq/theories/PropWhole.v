(** * PropWhole: C113, windowed indicators over whole-tick prices are exact in f64. *)
From Flocq Require Import Core IEEE754.BinarySingleNaN.
From Verif Require Export PropTick PropContent2 PropContent3 PropContent5 PropTa1.
From Verif Require Import Inst PContent1 PContent2 PContent3 PExact3 PRound.
Import ListNotations.
Local Open Scope R_scope.

(** Every value present is a whole number of ticks of size [2^e], at most [A]. *)
Definition whole (e A : Z) (xs : list (option f64)) : Prop := forall x, In (Some x) xs -> ticks_of e A x.
(** [x] is the f64 nearest to the real number [v], ties to even. *)
Definition nearest_to (x : f64) (v : R) : Prop := is_finite x = true /\ B2R x = round radix2 (SpecFloat.fexp 53 1024) ZnearestE v.
(** [x] is [v]. *)
Definition exactly (x : f64) (v : R) : Prop := is_finite x = true /\ B2R x = v.

Notation X113 := (map (option_map to_xr)).
Definition okb (e b : Z) (o : option f64) : Prop := forall v, o = Some v -> ticks_of e b v.

Lemma whole_app e A l m : whole e A (l ++ m) <-> whole e A l /\ whole e A m.
Proof.
  split.
  - intros H. split; intros x I; apply H, in_or_app; tauto.
  - intros [H1 H2] x I. apply in_app_or in I. destruct I; auto.
Qed.
Lemma whole_one e A o : whole e A [o] <-> okb e A o.
Proof. split; [intros H v ->; apply H; left; reflexivity|]. intros H x [->|[]]. apply H. reflexivity. Qed.
Lemma in_ago {A} k (l : list (option A)) v : join (ago k l) = Some v -> In (Some v) l.
Proof.
  unfold ago. destruct (k <? List.length l)%nat; [|discriminate]. destruct (nth_error l _) as [o|] eqn:E; [|discriminate]. cbn [join]. intros ->. exact (nth_error_In _ _ E).
Qed.
Lemma ago_X k h : join (ago k (X113 h)) = option_map to_xr (join (ago k h)).
Proof. rewrite ago_map. destruct (ago k h) as [[]|]; reflexivity. Qed.
Lemma newest_X h : join (newest (X113 h)) = option_map to_xr (join (newest h)).
Proof. rewrite newest_map. destruct (newest h) as [[]|]; reflexivity. Qed.
Lemma in_newest {A} (l : list (option A)) v : join (newest l) = Some v -> In (Some v) l.
Proof. unfold newest. destruct (nth_error l _) as [o|] eqn:E; [|discriminate]. cbn [join]. intros ->. exact (nth_error_In _ _ E). Qed.
Lemma all_some_X h : all_some (X113 h) = option_map (map to_xr) (all_some h).
Proof. induction h as [|[x|] h IH]; [reflexivity| |reflexivity]. cbn [map option_map all_some]. rewrite IH. destruct (all_some h); reflexivity. Qed.
Lemma lastn_map' {A B} (f : A -> B) n l : lastn n (map f l) = map f (lastn n l).
Proof. unfold lastn. rewrite map_length, skipn_map. reflexivity. Qed.
Lemma window_mapf {A B} (f : A -> B) n h : window n (map (option_map f) h) = option_map (map f) (window n h).
Proof.
  unfold window. rewrite map_length. destruct (n <=? List.length h)%nat; [|reflexivity]. rewrite lastn_map'.
  induction (lastn n h) as [|[y|] l IH]; cbn [map option_map all_some]; [reflexivity| |reflexivity]. rewrite IH. destruct (all_some l); reflexivity.
Qed.
Lemma window_X n h : window n (X113 h) = option_map (map to_xr) (window n h).
Proof. unfold window. rewrite map_length. destruct (n <=? List.length h)%nat; [|reflexivity]. rewrite lastn_map'. apply all_some_X. Qed.
Lemma present_X h : present (X113 h) = map to_xr (present h).
Proof. induction h as [|[x|] h IH]; cbn [map option_map present]; rewrite ?IH; reflexivity. Qed.

(** real values of a whole-tick series. *)
Definition vals (xs : list (option f64)) : list (option R) := map (option_map B2R) xs.
Lemma lift_vals e A h : whole e A h -> lift (vals h) = X113 h.
Proof.
  intros W. unfold lift, vals. rewrite map_map. apply map_ext_in. intros [x|] I; [|reflexivity]. cbn [option_map]. rewrite (tk_fin e _ _ (W x I)). reflexivity.
Qed.
Lemma Rsum_abs M l : Forall (fun x => Rabs x <= M) l -> Rabs (Rsum l) <= INR (List.length l) * M.
Proof.
  induction 1 as [|x l H _ IH]; [cbn; rewrite Rabs_R0; lra|]. cbn [Rsum List.length]. rewrite S_INR. pose proof (Rabs_triang x (Rsum l)). lra.
Qed.
Lemma present_len {A} (l : list (option A)) : (List.length (present l) <= List.length l)%nat.
Proof. induction l as [|[]]; cbn; lia. Qed.
Lemma lastn_len {A} n (l : list A) : (List.length (lastn n l) <= n)%nat.
Proof. unfold lastn. rewrite skipn_length. lia. Qed.
Lemma ticks_abs e A x : ticks_of e A x -> Rabs (B2R x) <= IZR A * bpow radix2 e.
Proof.
  intros (_ & z & -> & B). rewrite Rabs_mult, <- abs_IZR, (Rabs_pos_eq (bpow radix2 e)) by apply bpow_ge_0.
  apply Rmult_le_compat_r; [apply bpow_ge_0|apply IZR_le, B].
Qed.
Lemma ticks_shrink e A B x : ticks_of e A x -> Rabs (B2R x) <= IZR B * bpow radix2 e -> ticks_of e B x.
Proof.
  intros (F & z & E & _) L. split; [exact F|]. exists z. split; [exact E|]. apply le_IZR. rewrite abs_IZR.
  rewrite E, Rabs_mult, (Rabs_pos_eq (bpow radix2 e)) in L by apply bpow_ge_0. apply Rmult_le_reg_r with (2 := L). apply bpow_gt_0.
Qed.

Lemma lastn_app_r' {A} (h w : list A) : lastn (List.length w) (h ++ w) = w.
Proof. unfold lastn. rewrite app_length. replace (List.length h + List.length w - List.length w)%nat with (List.length h) by lia. rewrite skipn_app, skipn_all, Nat.sub_diag. reflexivity. Qed.
Lemma forall2_nth {A B} (P : A -> B -> Prop) xs : forall ys, List.length xs = List.length ys -> (forall i x y, nth_error xs i = Some x -> nth_error ys i = Some y -> P x y) -> Forall2 P xs ys.
Proof.
  induction xs as [|x xs IH]; intros [|y ys] L H; try discriminate L; constructor; [apply (H O); reflexivity|].
  apply IH; [cbn in L; lia|]. intros i u v. apply (H (S i)).
Qed.
Lemma forall2_len {A B} (P : A -> B -> Prop) xs ys : Forall2 P xs ys -> List.length xs = List.length ys.
Proof. induction 1; cbn; congruence. Qed.
(** The first is absent exactly when the second is, and never greater. *)
Definition below (x y : option f64) : Prop := match x, y with Some x, Some y => B2R x <= B2R y | None, None => True | _, _ => False end.
Lemma firstn_below n xs ys : Forall2 below xs ys -> Forall2 below (firstn n xs) (firstn n ys).
Proof. intros H. revert n. induction H as [|x y xs ys Hx H IH]; intros [|n]; cbn [firstn]; constructor; auto. Qed.
Lemma skipn_below n xs ys : Forall2 below xs ys -> Forall2 below (skipn n xs) (skipn n ys).
Proof. intros H. revert n. induction H as [|x y xs ys Hx H IH]; intros [|n]; cbn [skipn]; try constructor; auto. Qed.
Lemma window_below len xs ys : Forall2 below xs ys ->
  match window len xs, window len ys with Some w, Some w' => Rsum (map B2R w) <= Rsum (map B2R w') | None, None => True | _, _ => False end.
Proof.
  intros H. unfold window. pose proof (forall2_len _ _ _ H) as LN. rewrite <- LN. destruct (len <=? List.length xs)%nat; [|exact I].
  unfold lastn. rewrite <- LN. apply (skipn_below (List.length xs - len)) in H. revert H. generalize (skipn (List.length xs - len) xs), (skipn (List.length xs - len) ys). clear. intros l m H. induction H as [|x y l m Hx H IH]; [cbn; lra|].
  destruct x as [x|], y as [y|]; cbn [below] in Hx; try contradiction; cbn [all_some]; [|exact I].
  destruct (all_some l), (all_some m); try contradiction; [|exact I]. cbn [map Rsum]. apply Rplus_le_compat; assumption.
Qed.

Section Whole.
  Variable log10 : f64 -> f64.
  #[local] Instance N113 : Num f64 := IEEE log10.
  Variable e : Z.
  Hypothesis E0 : (-1074 <= e <= 970)%Z.
  Notation tk := (ticks_of e).

  Lemma racc_whole b len h : (0 <= b)%Z -> (1 <= len)%nat -> ((Z.of_nat len + 1) * b < 2 ^ 53)%Z -> whole e b h ->
    tk ((Z.of_nat len - 1) * b) (racc len h) /\ to_xr (racc len h) = racc len (X113 h).
  Proof.
    intros B0 L LB. induction h as [|x h IH] using rev_ind; intros W.
    - change (racc len []) with (@fZ f64 N113 0). destruct (tk_0 log10 e) as [T0 V0]. split; [apply (tk_weaken e _ _ _ T0); nia|exact V0].
    - apply whole_app in W. destruct W as [W Wx]. apply whole_one in Wx. destruct (IH W) as [T V].
      rewrite map_app. cbn [map]. rewrite !racc_snoc.
      change (X113 h ++ [option_map to_xr x]) with (X113 h ++ X113 [x]). rewrite <- map_app, ago_X.
      assert (Wo : okb e b (join (ago (len - 1) (h ++ [x])))) by (intros v Ev; apply in_ago in Ev; apply in_app_or in Ev; destruct Ev as [I|[->|[]]]; [exact (W v I)|apply Wx; reflexivity]).
      assert (A1 : tk (Z.of_nat len * b) (oadd (racc len h) x) /\ to_xr (oadd (racc len h) x) = oadd (racc len (X113 h)) (option_map to_xr x)).
      { destruct x as [v|]; cbn [oadd option_map]; [|split; [apply (tk_weaken e _ _ _ T); nia|exact V]].
        destruct (tk_add log10 e E0 _ _ _ _ T (Wx v eq_refl) ltac:(nia)) as [P Q]. split; [apply (tk_weaken e _ _ _ P); nia|]. change (N112 log10) with N113 in Q. rewrite Q, V. reflexivity. }
      destruct A1 as [A1 A2].
      assert (S1 : tk ((Z.of_nat len + 1) * b) (osub (oadd (racc len h) x) (join (ago (len - 1) (h ++ [x])))) /\
        to_xr (osub (oadd (racc len h) x) (join (ago (len - 1) (h ++ [x])))) = osub (oadd (racc len (X113 h)) (option_map to_xr x)) (option_map to_xr (join (ago (len - 1) (h ++ [x]))))).
      { destruct (join (ago (len - 1) (h ++ [x]))) as [v|]; cbn [osub option_map]; [|split; [apply (tk_weaken e _ _ _ A1); nia|exact A2]].
        destruct (tk_sub log10 e E0 _ _ _ _ A1 (Wo v eq_refl) ltac:(nia)) as [P Q]. split; [apply (tk_weaken e _ _ _ P); nia|]. change (N112 log10) with N113 in Q. rewrite Q, A2. reflexivity. }
      destruct S1 as [S1 S2]. split; [|exact S2]. apply (ticks_shrink _ _ _ _ S1).
      assert (WW : whole e b (h ++ [x])) by (apply whole_app; split; [exact W|apply whole_one; exact Wx]).
      assert (EX : racc len (lift (vals (h ++ [x]))) = osub (oadd (racc len (X113 h)) (option_map to_xr x)) (option_map to_xr (join (ago (len - 1) (h ++ [x]))))).
      { rewrite (lift_vals _ _ _ WW), map_app. cbn [map]. rewrite racc_snoc. change (X113 h ++ [option_map to_xr x]) with (X113 h ++ X113 [x]). rewrite <- map_app, ago_X. reflexivity. }
      rewrite racc_exact in EX by exact L. rewrite (tk_fin e _ _ S1), <- EX in S2. apply (f_equal (fun y => match y with Fin r => r | _ => 0 end)) in S2. cbn beta iota in S2. rewrite S2.
      apply Rle_trans with (INR (List.length (present (lastn (len - 1) (vals (h ++ [x]))))) * (IZR b * bpow radix2 e)).
      + apply Rsum_abs, Forall_forall. intros r Ir.
        assert (I2 : In (Some r) (vals (h ++ [x]))).
        { apply (lastn_In (len - 1)). clear -Ir. induction (lastn (len - 1) (vals (h ++ [x]))) as [|[y|] l IHl]; cbn in *; [contradiction| |].
          - destruct Ir as [->|Ir]; [left; reflexivity|right; apply IHl, Ir].
          - right. apply IHl, Ir. }
        unfold vals in I2. apply in_map_iff in I2. destruct I2 as ([y|] & Ey & Iy); [|discriminate Ey]. apply some_eq in Ey. subst r. apply (ticks_abs _ _ _ (WW y Iy)).
      + rewrite <- Rmult_assoc, mult_IZR, minus_IZR, <- INR_IZR_INZ. apply Rmult_le_compat_r; [apply bpow_ge_0|]. apply Rmult_le_compat_r; [apply IZR_le, B0|].
        change 1 with (INR 1). rewrite <- minus_INR by exact L. apply le_INR. pose proof (present_len (lastn (len - 1) (vals (h ++ [x])))). pose proof (lastn_len (len - 1) (vals (h ++ [x]))). lia.
  Qed.
  Lemma rsum_whole b len h : (0 <= b)%Z -> (1 <= len)%nat -> ((Z.of_nat len + 1) * b < 2 ^ 53)%Z -> whole e b h ->
    tk (Z.of_nat len * b) (rsum len h) /\ to_xr (rsum len h) = rsum len (X113 h).
  Proof.
    intros B0 L LB W. destruct h as [|x h _] using rev_ind.
    - destruct (racc_whole b len [] B0 L LB W) as [T V]. split; [apply (tk_weaken e _ _ _ T); nia|exact V].
    - apply whole_app in W. destruct W as [W Wx]. apply whole_one in Wx. destruct (racc_whole b len h B0 L LB W) as [T V].
      rewrite map_app. cbn [map]. rewrite !rsum_snoc. destruct x as [v|]; cbn [oadd option_map]; [|split; [apply (tk_weaken e _ _ _ T); nia|exact V]].
      destruct (tk_add log10 e E0 _ _ _ _ T (Wx v eq_refl) ltac:(nia)) as [P Q]. split; [apply (tk_weaken e _ _ _ P); nia|]. change (N112 log10) with N113 in Q. rewrite Q, V. reflexivity.
  Qed.
  Lemma sum_whole b len h : (0 <= b)%Z -> (1 <= len)%nat -> ((Z.of_nat len + 1) * b < 2 ^ 53)%Z -> whole e b h ->
    okb e (Z.of_nat len * b) (sum_out len h) /\ sum_out len (X113 h) = option_map to_xr (sum_out len h).
  Proof.
    intros B0 L LB W. destruct (rsum_whole b len h B0 L LB W) as [T V]. unfold sum_out. rewrite window_X. destruct (window len h) as [w|]; cbn [option_map]; [|split; [intros v H; discriminate H|reflexivity]].
    split; [intros v H; apply some_eq in H; subst v; exact T|]. rewrite V. reflexivity.
  Qed.

  (** ** C113 *)
  (** Sum: whatever came before, the value is the sum of the window, exactly,
      over any number of bars. *)
  Theorem C113_sum A len c xs : (1 <= len)%nat -> ((Z.of_nat len + 1) * A < 2 ^ 53)%Z -> (0 <= A)%Z -> whole e A xs ->
    exists os, run_new (sum_new len) sum_step c xs = Ok os /\ List.length os = List.length xs /\
    forall i o, nth_error os i = Some o ->
      match window len (firstn (S i) xs) with
      | None => o = None
      | Some w => exists v, o = Some v /\ exactly v (Rsum (map B2R w))
      end.
  Proof.
    intros L LB A0 W. rewrite (sum_run len c xs L). eexists; split; [reflexivity|]. split; [apply length_each_prefix|].
    intros i o Ho. apply nth_each in Ho. destruct Ho as [Hi ->]. set (h := firstn (S i) xs).
    assert (Wh : whole e A h) by (intros x I; apply W, (firstn_In _ _ _ I)).
    assert (NE : vals h <> []) by (subst h; destruct xs; [cbn in Hi; lia|discriminate]).
    destruct (sum_whole A len h A0 L LB Wh) as [T V]. rewrite <- (lift_vals _ _ _ Wh), (sum_exact len _ L NE) in V.
    assert (WV : window len (vals h) = option_map (map B2R) (window len h)).
    { apply window_mapf. }
    rewrite WV in V. unfold sum_out in *. destruct (window len h) as [w|]; cbn [option_map] in *; [|reflexivity].
    eexists; split; [reflexivity|]. pose proof (T _ eq_refl) as TK. rewrite (tk_fin e _ _ TK) in V. split; [apply TK|].
    apply some_eq in V. apply (f_equal (fun y => match y with Fin r => r | _ => 0 end)) in V. cbn beta iota in V. symmetry. exact V.
  Qed.

  (** ** Operations on optional amounts *)
  Lemma okb_none b : okb e b None. Proof. intros v H. discriminate H. Qed.
  Lemma okb_some b v : tk b v -> okb e b (Some v). Proof. intros H u E. apply some_eq in E. subst u. exact H. Qed.
  Lemma okb_weaken a b o : okb e a o -> (a <= b)%Z -> okb e b o.
  Proof. intros H L v E. exact (tk_weaken e _ _ _ (H v E) L). Qed.
  Lemma diff_whole a b x y : okb e a x -> okb e b y -> (a + b < 2 ^ 53)%Z ->
    okb e (a + b) (ps_diff x y) /\ ps_diff (option_map to_xr x) (option_map to_xr y) = option_map to_xr (ps_diff x y).
  Proof.
    intros Hx Hy L. destruct x as [x|], y as [y|]; cbn [ps_diff option_map]; try (split; [apply okb_none|reflexivity]).
    destruct (tk_sub log10 e E0 _ _ _ _ (Hx x eq_refl) (Hy y eq_refl) L) as [P Q]. split; [apply okb_some; exact P|]. f_equal. symmetry. exact Q.
  Qed.
  Lemma abs_whole a x : okb e a x -> okb e a (ps_abs x) /\ ps_abs (option_map to_xr x) = option_map to_xr (ps_abs x).
  Proof.
    intros Hx. destruct x as [x|]; cbn [ps_abs option_map]; [|split; [apply okb_none|reflexivity]].
    destruct (tk_abs log10 e _ _ (Hx x eq_refl)) as [P Q]. split; [apply okb_some; exact P|]. f_equal. symmetry. exact Q.
  Qed.
  Lemma max_whole a x y : okb e a x -> okb e a y -> okb e a (ps_max x y) /\ ps_max (option_map to_xr x) (option_map to_xr y) = option_map to_xr (ps_max x y).
  Proof.
    intros Hx Hy. destruct x as [x|], y as [y|]; cbn [ps_max option_map]; try (split; [apply okb_none|reflexivity]).
    split; [apply okb_some; exact (tk_max log10 e _ _ _ (Hx x eq_refl) (Hy y eq_refl))|]. f_equal. symmetry. exact (max_exact log10 x y).
  Qed.
  Lemma min_whole a x y : okb e a x -> okb e a y -> okb e a (ps_min x y) /\ ps_min (option_map to_xr x) (option_map to_xr y) = option_map to_xr (ps_min x y).
  Proof.
    intros Hx Hy. destruct x as [x|], y as [y|]; cbn [ps_min option_map]; try (split; [apply okb_none|reflexivity]).
    split; [apply okb_some; exact (tk_min log10 e _ _ _ (Hx x eq_refl) (Hy y eq_refl))|]. f_equal. symmetry. exact (min_exact log10 x y).
  Qed.
  Lemma zero_whole b : (0 <= b)%Z -> okb e b (Some (fZ 0)) /\ Some (fZ 0 : xr) = option_map to_xr (Some (fZ 0)).
  Proof.
    intros B0. destruct (tk_0 log10 e) as [T0 V0]. split; [apply okb_some; exact (tk_weaken e _ _ _ T0 B0)|]. cbn [option_map]. apply (f_equal Some). symmetry. exact V0.
  Qed.
  Lemma newest_whole b h : whole e b h -> okb e b (join (newest h)). Proof. intros W v E. exact (W v (in_newest _ _ E)). Qed.
  Lemma ago_whole b k h : whole e b h -> okb e b (join (ago k h)). Proof. intros W v E. exact (W v (in_ago _ _ _ E)). Qed.
  Lemma prefix_whole b xs p : whole e b xs -> In p (prefixes xs) -> whole e b p.
  Proof. intros W I. apply in_prefixes in I. destruct I as (k & _ & ->). intros x Ix. apply W, (firstn_In _ _ _ Ix). Qed.
  Lemma each_whole {T U} b (f : list T -> option f64) (f' : list U -> option xr) (g : T -> U) xs :
    (forall p, In p (prefixes xs) -> okb e b (f p) /\ f' (map g p) = option_map to_xr (f p)) ->
    whole e b (each_prefix f xs) /\ each_prefix f' (map g xs) = X113 (each_prefix f xs).
  Proof.
    intros H. split.
    - intros x I. unfold each_prefix in I. apply in_map_iff in I. destruct I as (p & Ep & Ip). apply (proj1 (H p Ip)). exact Ep.
    - rewrite each_prefix_of_map, each_prefix_map. unfold each_prefix. apply map_ext_in. intros p Ip. exact (proj2 (H p Ip)).
  Qed.

  (** the f64 nearest to a quotient, present when the exact one is. *)
  Definition near_opt (o : option f64) (o' : option xr) : Prop :=
    match o, o' with Some x, Some r => nearest x r | None, None => True | _, _ => False end.
  Lemma near_fin o v : near_opt o (Some (Fin v)) -> exists x, o = Some x /\ nearest_to x v.
  Proof. destruct o as [x|]; [|intros []]. intros H. exists x. split; [reflexivity|exact (H v eq_refl)]. Qed.
  Lemma near_none o : near_opt o None -> o = None.
  Proof. destruct o; [intros []|reflexivity]. Qed.
  Lemma near_option o (r : option R) : near_opt o (option_map Fin r) -> match r with Some v => exists x, o = Some x /\ nearest_to x v | None => o = None end.
  Proof. destruct r as [v|]; [apply near_fin|apply near_none]. Qed.
  Lemma eq_exact (x y : f64) : feqb x y = feqb (to_xr x) (to_xr y). Proof. apply to_xr_eq. Qed.
  Lemma tk_Z k : (Z.abs k <= 2 ^ 53)%Z -> is_finite (@fZ f64 N113 k) = true /\ B2R (@fZ f64 N113 k) = IZR k /\ to_xr (@fZ f64 N113 k) = fZ k.
  Proof. intros H. destruct (f64_ofZ_correct k H) as [V F]. split; [exact F|]. split; [exact V|]. exact (to_xr_ofZ k H). Qed.
  Lemma div_whole a b x y : okb e a x -> okb e b y -> (a < 2 ^ 53)%Z -> near_opt (ps_div x y) (ps_div (option_map to_xr x) (option_map to_xr y)).
  Proof.
    intros Hx Hy L. destruct x as [x|], y as [y|]; try exact I. unfold ps_div. cbn [option_map].
    replace (feqb (to_xr y) (fZ 0)) with (feqb y (fZ 0)) by (rewrite eq_exact, (proj2 (proj2 (tk_Z 0 ltac:(cbn; lia)))); reflexivity).
    destruct (feqb y (fZ 0)); [exact I|]. exact (ratio_nearest log10 e E0 _ _ _ _ (Hx x eq_refl) (Hy y eq_refl) L).
  Qed.
  (** a whole multiple. *)
  Lemma tk_mulZ k a x : (0 <= k)%Z -> (k * a < 2 ^ 53)%Z -> (k <= 2 ^ 53)%Z -> tk a x -> tk (k * a) (fmul (fZ k) x) /\ to_xr (fmul (fZ k) x) = fmul (fZ k) (to_xr x).
  Proof.
    intros K L K2 Hx. pose proof (tk_fin e _ _ Hx) as Ex. destruct Hx as (Fx & z & E & B).
    destruct (tk_Z k ltac:(lia)) as (F & V & EZ).
    pose proof (Bmult_correct 53 1024 _ _ mode_NE (@fZ f64 N113 k) x) as C. rewrite V in C.
    assert (S : IZR k * B2R x = IZR (k * z) * bpow radix2 e) by (rewrite E, mult_IZR; ring).
    assert (Zb : (Z.abs (k * z) <= k * a)%Z) by (rewrite Z.abs_mul, (Z.abs_eq k) by exact K; nia).
    destruct (whole_exact e E0 (k * z)) as [W1 W2]; [lia|].
    rewrite S, W1, Rlt_bool_true in C by exact W2. destruct C as (C & Fz & _). rewrite Fx, F in Fz.
    split.
    - split; [exact Fz|]. exists (k * z)%Z. split; [exact C|exact Zb].
    - change (fmul (fZ k) x) with (Bmult mode_NE (@fZ f64 N113 k) x). rewrite (to_xr_finite _ Fz), C, Ex. change (fZ k : xr) with (Fin (IZR k)). rewrite fin_mul, S. reflexivity.
  Qed.
  (** an amount over a count. *)
  Lemma tk_over a x k : tk a x -> (a < 2 ^ 53)%Z -> (1 <= k)%nat -> (Z.of_nat k <= 2 ^ 53)%Z -> nearest_to (fdiv x (fnat k)) (B2R x / INR k).
  Proof.
    intros Hx L K1 K2. destruct (tk_Z (Z.of_nat k) ltac:(lia)) as (Fk & Vk & Ek). change (@fZ f64 N113 (Z.of_nat k)) with (@fnat f64 N113 k) in Fk, Vk, Ek. rewrite <- INR_IZR_INZ in Vk.
    assert (KP : 1 <= INR k) by (apply (le_INR 1); lia).
    assert (G : nearest (fdiv x (@fnat f64 N113 k)) (fdiv (to_xr x) (to_xr (@fnat f64 N113 k)))).
    { apply (div_nearest log10); [apply Hx|exact Fk|]. intros _. rewrite Vk. pose proof (ticks_abs _ _ _ Hx) as TA.
      unfold Rdiv. rewrite Rabs_mult, (Rabs_pos_eq (/ INR k)) by (apply Rlt_le, Rinv_0_lt_compat; lra).
      apply Rle_trans with (bpow radix2 53 * bpow radix2 970 * 1).
      - apply Rmult_le_compat; [apply Rabs_pos|apply Rlt_le, Rinv_0_lt_compat; lra| |rewrite <- Rinv_1; apply Rinv_le_contravar; lra].
        eapply Rle_trans; [exact TA|]. apply Rmult_le_compat.
        + apply IZR_le. destruct Hx as (_ & z & _ & B). lia.
        + apply bpow_ge_0.
        + change (bpow radix2 53) with (IZR (2 ^ 53)). apply IZR_le. lia.
        + apply bpow_le. lia.
      - rewrite Rmult_1_r, <- bpow_plus. apply bpow_le. lia. }
    apply G. rewrite (tk_fin e _ _ Hx), (to_xr_finite _ Fk), Vk. apply fin_div. lra.
  Qed.
  Lemma exact_near a x : tk a x -> nearest_to x (B2R x).
  Proof. intros (F & _). split; [exact F|]. symmetry. apply round_generic; [apply valid_rnd_N|]. apply generic_format_B2R. Qed.

  (** Sma: the f64 nearest to the mean of the window. *)
  Theorem C113_sma A len c xs : (1 <= len)%nat -> (Z.of_nat len <= 2 ^ 53)%Z -> ((Z.of_nat len + 1) * A < 2 ^ 53)%Z -> (0 <= A)%Z -> whole e A xs ->
    exists os, run_new (sma_new len) sma_step c xs = Ok os /\ List.length os = List.length xs /\
    forall i o, nth_error os i = Some o ->
      match window len (firstn (S i) xs) with
      | None => o = None
      | Some w => exists v, o = Some v /\ nearest_to v (Rsum (map B2R w) / INR len)
      end.
  Proof.
    intros L L2 LB A0 W. rewrite (sma_run len c xs L). eexists; split; [reflexivity|]. split; [apply length_each_prefix|].
    intros i o Ho. apply nth_each in Ho. destruct Ho as [Hi ->].
    destruct (C113_sum A len c xs L LB A0 W) as (os & R1 & R2 & R3). rewrite (sum_run len c xs L) in R1. injection R1 as <-.
    assert (N : nth_error (each_prefix (sum_out len) xs) i = Some (sum_out len (firstn (S i) xs))) by (apply nth_error_each_prefix; exact Hi).
    specialize (R3 i _ N). set (h := firstn (S i) xs) in *.
    assert (Wh : whole e A h) by (intros x I; apply W, (firstn_In _ _ _ I)).
    assert (NE : h <> []) by (subst h; destruct xs; [cbn in Hi; lia|discriminate]).
    unfold sma_out. destruct (Nat.eqb_spec len 1) as [->|Q].
    - rewrite (window_1 _ NE). pose proof (newest_whole _ _ Wh) as NW. destruct (join (newest h)) as [x|]; [|reflexivity].
      exists x. split; [reflexivity|]. cbn [map Rsum INR]. replace ((B2R x + 0) / 1) with (B2R x) by field. exact (exact_near _ _ (NW x eq_refl)).
    - destruct (rsum_whole A len h A0 L LB Wh) as [T _]. unfold sum_out in R3. destruct (window len h) as [w|]; cbn [option_map] in *; [|reflexivity].
      eexists; split; [reflexivity|]. destruct R3 as (v & Ev & _ & V). apply some_eq in Ev. subst v. rewrite <- V. apply (tk_over _ _ _ T); [nia|exact L|exact L2].
  Qed.

  (** Change and Roc. *)
  Theorem C113_change A len c xs : (1 <= len)%nat -> (2 * A < 2 ^ 53)%Z -> whole e A xs ->
    exists os, run_new (change_new len) change_step c xs = Ok os /\ List.length os = List.length xs /\
    forall i o, nth_error os i = Some o ->
      match join (ago len (firstn (S i) xs)), nth_error xs i with
      | Some old, Some (Some new) => (B2R old = 0 -> o = None) /\ (B2R old <> 0 -> exists v, o = Some v /\ exactly v (B2R new - B2R old))
      | _, _ => o = None
      end.
  Proof.
    intros L LB W. rewrite (change_run len c xs L). eexists; split; [reflexivity|]. split; [apply length_each_prefix|].
    intros i o Ho. apply nth_each in Ho. destruct Ho as [Hi ->].
    destruct (nth_error xs i) as [x|] eqn:N; [|apply nth_error_Some in Hi; contradiction].
    assert (Wh : whole e A (firstn (S i) xs)) by (intros y I; apply W, (firstn_In _ _ _ I)).
    pose proof (ago_whole _ len _ Wh) as OW. pose proof (newest_whole _ _ Wh) as NW. unfold change_out.
    assert (NX : join (newest (firstn (S i) xs)) = x) by (rewrite (PropTa3.firstn_S_nth _ _ _ N), newest_snoc; reflexivity). rewrite NX in *.
    destruct (join (ago len (firstn (S i) xs))) as [old|]; [|reflexivity]. destruct x as [new|]; [|reflexivity].
    pose proof (OW old eq_refl) as TO. pose proof (NW new eq_refl) as TN.
    assert (EQ : feqb old (fZ 0) = Reqb (B2R old) 0).
    { rewrite eq_exact, (tk_fin e _ _ TO), (proj2 (proj2 (tk_Z 0 ltac:(cbn; lia)))), fin_Z. apply fin_eq. }
    rewrite EQ. destruct (Reqb_spec (B2R old) 0) as [Z|Z]; (split; [intros H; first [reflexivity|contradiction]|intros H; first [contradiction|idtac]]).
    destruct (tk_sub log10 e E0 _ _ _ _ TN TO ltac:(lia)) as [P Q]. eexists; split; [reflexivity|]. split; [apply P|].
    rewrite (tk_fin e _ _ P), (tk_fin e _ _ TN), (tk_fin e _ _ TO), fin_sub in Q. injection Q as Q. exact Q.
  Qed.
  Theorem C113_roc A len c xs : (1 <= len)%nat -> (200 * A < 2 ^ 53)%Z -> whole e A xs ->
    exists os, run_new (roc_new len) roc_step c xs = Ok os /\ List.length os = List.length xs /\
    forall i o, nth_error os i = Some o ->
      match join (ago len (firstn (S i) xs)), nth_error xs i with
      | Some old, Some (Some new) => (B2R old = 0 -> o = None) /\ (B2R old <> 0 -> exists v, o = Some v /\ nearest_to v (100 * (B2R new - B2R old) / B2R old))
      | _, _ => o = None
      end.
  Proof.
    intros L LB W. rewrite (roc_run len c xs L). eexists; split; [reflexivity|]. split; [apply length_each_prefix|].
    intros i o Ho. apply nth_each in Ho. destruct Ho as [Hi ->].
    destruct (nth_error xs i) as [x|] eqn:N; [|apply nth_error_Some in Hi; contradiction].
    assert (Wh : whole e A (firstn (S i) xs)) by (intros y I; apply W, (firstn_In _ _ _ I)).
    pose proof (ago_whole _ len _ Wh) as OW. pose proof (newest_whole _ _ Wh) as NW. unfold roc_out.
    assert (NX : join (newest (firstn (S i) xs)) = x) by (rewrite (PropTa3.firstn_S_nth _ _ _ N), newest_snoc; reflexivity). rewrite NX in *.
    destruct (join (ago len (firstn (S i) xs))) as [old|]; [|reflexivity]. destruct x as [new|]; [|reflexivity].
    pose proof (OW old eq_refl) as TO. pose proof (NW new eq_refl) as TN.
    assert (EQ : feqb old (fZ 0) = Reqb (B2R old) 0).
    { rewrite eq_exact, (tk_fin e _ _ TO), (proj2 (proj2 (tk_Z 0 ltac:(cbn; lia)))), fin_Z. apply fin_eq. }
    rewrite EQ. destruct (Reqb_spec (B2R old) 0) as [Z|Z]; (split; [intros H; first [reflexivity|contradiction]|intros H; first [contradiction|idtac]]).
    destruct TO as (FO & zo & EO & BO). assert (TO : tk A old) by (split; [exact FO|exists zo; split; assumption]).
    destruct (tk_sub log10 e E0 _ _ _ _ TN TO ltac:(lia)) as [P Q].
    destruct (tk_mulZ 100 (A + A) _ ltac:(lia) ltac:(lia) ltac:(lia) P) as [P2 Q2].
    eexists; split; [reflexivity|]. apply (ratio_nearest log10 e E0 _ _ _ _ P2 TO ltac:(lia)).
    change (N112 log10) with N113 in *. rewrite Q2, Q, (tk_fin e _ _ TN), (tk_fin e _ _ TO), fin_sub. change (fZ 100 : xr) with (Fin 100). rewrite fin_mul. apply fin_div. exact Z.
  Qed.

  (** ** Chande momentum oscillator *)
  Lemma momentum_whole A p : (2 * A < 2 ^ 53)%Z -> whole e A p -> okb e (2 * A) (momentum p) /\ momentum (X113 p) = option_map to_xr (momentum p).
  Proof.
    intros L W. unfold momentum. rewrite newest_X, ago_X. replace (2 * A)%Z with (A + A)%Z by lia.
    apply diff_whole; [exact (newest_whole _ _ W)|exact (ago_whole _ _ _ W)|lia].
  Qed.
  Lemma up_whole b o o' : (0 <= b)%Z -> okb e b o -> o' = option_map to_xr o -> okb e b (cmo_up o) /\ cmo_up o' = option_map to_xr (cmo_up o).
  Proof. intros B0 H ->. unfold cmo_up. destruct (zero_whole b B0) as [Z1 Z2]. rewrite Z2. apply max_whole; assumption. Qed.
  Lemma down_whole b o o' : (0 <= b)%Z -> okb e b o -> o' = option_map to_xr o -> okb e b (cmo_down o) /\ cmo_down o' = option_map to_xr (cmo_down o).
  Proof.
    intros B0 H ->. unfold cmo_down. destruct (zero_whole b B0) as [Z1 Z2]. rewrite Z2. destruct (min_whole b _ _ Z1 H) as [M1 M2]. rewrite M2. apply abs_whole, M1.
  Qed.
  Lemma neg_xr (x : f64) : is_finite x = true -> to_xr (fneg x) = fneg (to_xr x).
  Proof.
    intros F. assert (F' : is_finite (fneg x) = true) by (change (fneg x) with (Bopp x); rewrite is_finite_Bopp; exact F).
    rewrite (to_xr_finite _ F), (to_xr_finite _ F'), fin_neg. f_equal. apply B2R_Bopp.
  Qed.
  Lemma cmo_whole A len xs : (0 <= A)%Z -> (1 <= len)%nat -> ((Z.of_nat len + 1) * (2 * A) < 2 ^ 53)%Z -> (100 * (Z.of_nat len * (4 * A)) < 2 ^ 53)%Z -> whole e A xs ->
    near_opt (cmo_out len xs) (cmo_out len (X113 xs)).
  Proof.
    intros A0 L L1 L2 W. unfold cmo_out.
    destruct (each_whole (2 * A) (fun p => cmo_up (momentum p)) (fun p => cmo_up (momentum p)) (option_map to_xr) xs) as [U1 U2].
    { intros p Ip. pose proof (prefix_whole _ _ _ W Ip) as Wp. destruct (momentum_whole A p ltac:(nia) Wp) as [M1 M2]. apply up_whole; [lia|exact M1|exact M2]. }
    destruct (each_whole (2 * A) (fun p => cmo_down (momentum p)) (fun p => cmo_down (momentum p)) (option_map to_xr) xs) as [D1 D2].
    { intros p Ip. pose proof (prefix_whole _ _ _ W Ip) as Wp. destruct (momentum_whole A p ltac:(nia) Wp) as [M1 M2]. apply down_whole; [lia|exact M1|exact M2]. }
    rewrite U2, D2. destruct (sum_whole (2 * A) len _ ltac:(lia) L L1 U1) as [T1 V1]. destruct (sum_whole (2 * A) len _ ltac:(lia) L L1 D1) as [T2 V2]. rewrite V1, V2.
    set (a := sum_out len (each_prefix (fun p => cmo_up (momentum p)) xs)) in *. set (b := sum_out len (each_prefix (fun p => cmo_down (momentum p)) xs)) in *. clearbody a b. clear -T1 T2 L2 E0 A0.
    destruct a as [a|], b as [b|]; try exact I. unfold cmo_value. cbn [option_map]. pose proof (T1 a eq_refl) as Ta. pose proof (T2 b eq_refl) as Tb.
    replace (feqb (to_xr a) (fneg (to_xr b))) with (feqb a (fneg b)) by (rewrite eq_exact, neg_xr by apply Tb; reflexivity).
    destruct (feqb a (fneg b)); [exact I|].
    destruct (tk_sub log10 e E0 _ _ _ _ Ta Tb ltac:(nia)) as [S1 S2]. destruct (tk_add log10 e E0 _ _ _ _ Ta Tb ltac:(nia)) as [P1 P2].
    destruct (tk_mulZ 100 (Z.of_nat len * (2 * A) + Z.of_nat len * (2 * A)) _ ltac:(lia) ltac:(nia) ltac:(lia) S1) as [Q1 Q2]. change (N112 log10) with N113 in *. cbn [near_opt]. rewrite <- P2, <- S2, <- Q2.
    refine (ratio_nearest log10 e E0 _ _ _ _ Q1 P1 _). nia.
  Qed.
  (** a source feeding any complete real series. *)
  Lemma feeder (vs : list R) : exists (c : ctx xr) src, feeds c src (full vs).
  Proof.
    set (bs := map (fun v => bar_of (mkRB v v v v v)) vs).
    exists (mkCtx (mkProvider (map b_open bs) (map b_high bs) (map b_low bs) (map b_close bs) (map b_volume bs) [] 0 0) 0 0 0 0 false), (src_box SClose).
    replace (full vs) with (map (src_of SClose) bs) by (subst bs; rewrite map_map; reflexivity).
    apply src_feeds; [split; [repeat split|reflexivity]|]. apply Forall_forall. intros b _. exact I.
  Qed.
  Lemma X_full A vs : Forall (tk A) vs -> X113 (map Some vs) = full (map B2R vs).
  Proof.
    intros H. unfold full. rewrite !map_map. apply map_ext_in. intros x I. cbn [option_map]. rewrite Forall_forall in H. rewrite (tk_fin e _ _ (H x I)). reflexivity.
  Qed.
  Lemma whole_some A vs : Forall (tk A) vs -> whole e A (map Some vs).
  Proof. intros H x I. apply in_map_iff in I. destruct I as (y & Ey & Iy). apply some_eq in Ey. subst y. rewrite Forall_forall in H. exact (H x Iy). Qed.
  Lemma round_between a b v x : (Z.abs a <= 2 ^ 53)%Z -> (Z.abs b <= 2 ^ 53)%Z -> IZR a <= v <= IZR b -> nearest_to x v -> IZR a <= B2R x <= IZR b.
  Proof.
    intros Ha Hb [H1 H2] [_ ->].
    assert (G : forall z, (Z.abs z <= 2 ^ 53)%Z -> generic_format radix2 (SpecFloat.fexp 53 1024) (IZR z)).
    { intros z Hz. destruct (f64_ofZ_correct z Hz) as [V _]. rewrite <- V. apply generic_format_B2R. }
    pose proof (fexp_correct 53 1024 eq_refl) as VE.
    split; [apply round_ge_generic|apply round_le_generic]; auto with typeclass_instances.
  Qed.
  Theorem C113_cmo A len c src vs : (2 <= len)%nat -> (400 * Z.of_nat len * A < 2 ^ 53)%Z -> (0 <= A)%Z -> Forall (tk A) vs -> feeds c src (map Some vs) ->
    exists os, run_new (cmo_new src len) cmo_step c (ticks (List.length vs)) = Ok os /\ List.length os = List.length vs /\
    forall i o, nth_error os i = Some o ->
      match full_window len (diffs (firstn (S i) (map B2R vs))) with
      | None => o = None
      | Some w =>
          let u := total_rise w in let d := total_fall w in
          (Forall (fun x => x = 0) w -> o = None) /\
          (~ Forall (fun x => x = 0) w -> exists v, o = Some v /\ nearest_to v (100 * (u - d) / (u + d)) /\ -100 <= B2R v <= 100)
      end.
  Proof.
    intros L LB A0 W H. pose proof (cmo_run len c src _ L H) as R. rewrite map_length in R. rewrite R.
    eexists; split; [reflexivity|]. split; [rewrite length_each_prefix, map_length; reflexivity|].
    intros i o Ho. apply nth_each in Ho. destruct Ho as [Hi ->]. rewrite map_length in Hi. rewrite !firstn_map.
    assert (Wi : Forall (tk A) (firstn (S i) vs)) by (rewrite Forall_forall in *; intros x I; apply W, (firstn_In _ _ _ I)).
    pose proof (cmo_whole A len _ A0 ltac:(lia) ltac:(nia) ltac:(nia) (whole_some _ _ Wi)) as NR. rewrite (X_full _ _ Wi) in NR.
    destruct (feeder (map B2R vs)) as (c' & src' & H'). destruct (C55_exact len c' src' _ L H') as (os' & R' & _ & X).
    pose proof (cmo_run len c' src' _ L H') as R2. unfold full in R2 at 1. rewrite map_length in R2. rewrite R' in R2. injection R2 as ->.
    specialize (X i (cmo_out len (firstn (S i) (full (map B2R vs))))). rewrite nth_error_each_prefix in X by (unfold full; rewrite !map_length; exact Hi). specialize (X eq_refl).
    rewrite full_firstn in X. rewrite firstn_map in X.
    match type of X with context [full_window len ?d] => set (fw := full_window len d) in X end.
    match goal with |- context [full_window len ?d] => change (full_window len d) with fw end. clearbody fw. destruct fw as [w|].
    - cbn zeta in *. destruct X as [X1 X2]. split; intros Q.
      + apply near_none. rewrite <- (X1 Q). exact NR.
      + destruct (X2 Q) as [X3 X4]. assert (NF : near_opt (cmo_out len (map Some (firstn (S i) vs))) (Some (Fin (100 * (total_rise w - total_fall w) / (total_rise w + total_fall w))))) by (rewrite <- X3; exact NR). destruct (near_fin _ _ NF) as (x & -> & NX). exists x. split; [reflexivity|]. split; [exact NX|]. exact (round_between (-100) 100 _ _ ltac:(cbn; lia) ltac:(cbn; lia) X4 NX).
    - apply near_none. rewrite <- X. exact NR.
  Qed.

  (** ** Bars *)
  (** The four prices are present and whole-tick. *)
  Definition whole_bar (A : Z) (b : bar f64) : Prop :=
    exists o h l c, b_open b = Some o /\ b_high b = Some h /\ b_low b = Some l /\ b_close b = Some c /\ tk A o /\ tk A h /\ tk A l /\ tk A c.
  (** The bar read as real numbers. *)
  Definition value_of (o : option f64) : R := match o with Some x => B2R x | None => 0 end.
  Definition real_bar (b : bar f64) : rbar5 := mkRB (value_of (b_open b)) (value_of (b_high b)) (value_of (b_low b)) (value_of (b_close b)) (value_of (b_volume b)).
  Definition xbar (b : bar f64) : bar xr := bar_of (real_bar b).
  Definition column (A : Z) (k : bar f64 -> option f64) (k' : bar xr -> option xr) : Prop :=
    forall b, whole_bar A b -> okb e A (k b) /\ k' (xbar b) = option_map to_xr (k b).
  Lemma columns A : column A b_open b_open /\ column A b_high b_high /\ column A b_low b_low /\ column A b_close b_close.
  Proof.
    assert (G : forall x, tk A x -> okb e A (Some x) /\ Some (Fin (B2R x)) = option_map to_xr (Some x)).
    { intros x T. split; [apply okb_some; exact T|]. cbn [option_map]. rewrite (tk_fin e _ _ T). reflexivity. }
    split; [|split; [|split]]; intros b H; destruct H as (o & h & l & c & H1 & H2 & H3 & H4 & T1 & T2 & T3 & T4); unfold xbar, real_bar, bar_of;
      cbn [b_open b_high b_low b_close ro rh rl rc]; rewrite ?H1, ?H2, ?H3, ?H4; cbn [value_of]; apply G; assumption.
  Qed.
  Lemma cur_whole A k k' p : column A k k' -> Forall (whole_bar A) p -> okb e A (cur k p) /\ cur k' (map xbar p) = option_map to_xr (cur k p).
  Proof.
    intros C W. unfold cur. rewrite newest_map. unfold newest. destruct (nth_error p (List.length p - 1)) as [b|] eqn:N; cbn [option_map obind]; [|split; [apply okb_none|reflexivity]].
    apply C. rewrite Forall_forall in W. exact (W b (nth_error_In _ _ N)).
  Qed.
  Lemma prv_whole A k k' p : column A k k' -> Forall (whole_bar A) p -> okb e A (prv k p) /\ prv k' (map xbar p) = option_map to_xr (prv k p).
  Proof.
    intros C W. unfold prv. rewrite ago_map. unfold ago. destruct (1 <? List.length p)%nat; [|split; [apply okb_none|reflexivity]].
    destruct (nth_error p (List.length p - 1 - 1)) as [b|] eqn:N; cbn [option_map obind]; [|split; [apply okb_none|reflexivity]].
    apply C. rewrite Forall_forall in W. exact (W b (nth_error_In _ _ N)).
  Qed.
  Lemma prefix_bars A bs p : Forall (whole_bar A) bs -> In p (prefixes bs) -> Forall (whole_bar A) p.
  Proof. intros W I. apply in_prefixes in I. destruct I as (k & _ & ->). rewrite Forall_forall in *. intros b Ib. apply W, (firstn_In _ _ _ Ib). Qed.
  Lemma firstn_bars A bs i : Forall (whole_bar A) bs -> Forall (whole_bar A) (firstn i bs).
  Proof. intros W. rewrite Forall_forall in *. intros b Ib. apply W, (firstn_In _ _ _ Ib). Qed.
  Lemma fresh_real (rs : list rbar5) : exists c : ctx xr, fresh_over c (map bar_of rs).
  Proof.
    set (bs := map bar_of rs).
    exists (mkCtx (mkProvider (map b_open bs) (map b_high bs) (map b_low bs) (map b_close bs) (map b_volume bs) [] 0 0) 0 0 0 0 false).
    split; [repeat split|reflexivity].
  Qed.
  Lemma whole_hl A bs : Forall (whole_bar A) bs -> Forall has_hl bs.
  Proof. intros W. rewrite Forall_forall in *. intros b I. destruct (W b I) as (o & h & l & c & _ & H2 & H3 & _). split; [rewrite H2|rewrite H3]; discriminate. Qed.
  Definition shows (o : option f64) (r : option R) : Prop := match r with Some v => exists x, o = Some x /\ nearest_to x v | None => o = None end.

  (** True range: exact. *)
  Lemma tr_whole A na p : (2 * A < 2 ^ 53)%Z -> Forall (whole_bar A) p -> okb e (2 * A) (tr_out na p) /\ tr_out na (map xbar p) = option_map to_xr (tr_out na p).
  Proof.
    intros L W. destruct (columns A) as (_ & CH & CL & CC). unfold tr_out.
    destruct (cur_whole A _ _ p CH W) as [H1 ->]. destruct (cur_whole A _ _ p CL W) as [H2 ->].
    destruct (prv_whole A _ _ p CH W) as [_ ->]. destruct (prv_whole A _ _ p CL W) as [_ ->]. destruct (prv_whole A _ _ p CC W) as [H3 ->].
    destruct (cur b_high p) as [hi|]; [|split; [apply okb_none|reflexivity]]. destruct (cur b_low p) as [lo|]; [|split; [apply okb_none|reflexivity]].
    cbn [option_map]. unfold true_range. pose proof (H1 hi eq_refl) as T1. pose proof (H2 lo eq_refl) as T2.
    replace (2 * A)%Z with (A + A)%Z in * by lia. destruct (tk_sub log10 e E0 _ _ _ _ T1 T2 L) as [P1 Q1]. change (N112 log10) with N113 in *.
    assert (Z : okb e (A + A) (if na then Some (fsub hi lo) else None) /\ (if na then Some (fsub (to_xr hi) (to_xr lo)) else None) = option_map to_xr (if na then Some (fsub hi lo) else None)).
    { destruct na; [|split; [apply okb_none|reflexivity]]. split; [apply okb_some; exact P1|]. cbn [option_map]. rewrite Q1. reflexivity. }
    destruct (prv b_high p) as [ph|]; [|exact Z]. destruct (prv b_low p) as [pl|]; [|exact Z]. destruct (prv b_close p) as [pc|]; [|exact Z]. cbn [option_map]. clear Z.
    pose proof (H3 pc eq_refl) as T3. destruct (tk_sub log10 e E0 _ _ _ _ T1 T3 L) as [P2 Q2]. destruct (tk_sub log10 e E0 _ _ _ _ T2 T3 L) as [P3 Q3].
    destruct (tk_abs log10 e _ _ P2) as [P4 Q4]. destruct (tk_abs log10 e _ _ P3) as [P5 Q5]. change (N112 log10) with N113 in *.
    split; [apply okb_some, (tk_max log10 e); [apply (tk_max log10 e); assumption|exact P5]|].
    pose proof (max_exact log10) as MX. change (N112 log10) with N113 in MX. rewrite !MX, Q4, Q5, Q1, Q2, Q3. reflexivity.
  Qed.
  Lemma atr1_whole A p : (2 * A < 2 ^ 53)%Z -> Forall (whole_bar A) p -> okb e (2 * A) (atr_out 1 p) /\ atr_out 1 (map xbar p) = option_map to_xr (atr_out 1 p).
  Proof.
    intros L W. unfold atr_out, ema_out, ema_val. cbn [Nat.eqb].
    destruct (each_whole (2 * A) (tr_out true) (tr_out true) xbar p) as [U1 U2]; [intros p' Ip; apply tr_whole; [exact L|exact (prefix_bars _ _ _ W Ip)]|].
    rewrite U2, present_X, newest_map. split; [|reflexivity]. intros v Ev. apply U1. unfold newest in Ev. apply nth_error_In in Ev.
    clear -Ev. induction (each_prefix (tr_out true) p) as [|[y|] l IH]; cbn in *; [contradiction| |right; apply IH, Ev]. destruct Ev as [->|Ev]; [left; reflexivity|right; apply IH, Ev].
  Qed.
  Lemma vx_whole A p : (2 * A < 2 ^ 53)%Z -> Forall (whole_bar A) p ->
    (okb e (2 * A) (vx_plus p) /\ vx_plus (map xbar p) = option_map to_xr (vx_plus p)) /\ (okb e (2 * A) (vx_minus p) /\ vx_minus (map xbar p) = option_map to_xr (vx_minus p)).
  Proof.
    intros L W. destruct (columns A) as (_ & CH & CL & CC). unfold vx_plus, vx_minus. replace (2 * A)%Z with (A + A)%Z in * by lia.
    destruct (cur_whole A _ _ p CH W) as [H1 E1]. destruct (cur_whole A _ _ p CL W) as [H2 E2]. destruct (prv_whole A _ _ p CH W) as [H3 E3]. destruct (prv_whole A _ _ p CL W) as [H4 E4].
    rewrite E1, E2, E3, E4.
    destruct (diff_whole _ _ _ _ H1 H4 L) as [P1 Q1]. destruct (diff_whole _ _ _ _ H2 H3 L) as [P2 Q2]. rewrite Q1, Q2. split; apply abs_whole; assumption.
  Qed.
  Lemma vortex_whole A len p : (0 <= A)%Z -> (1 <= len)%nat -> ((Z.of_nat len + 1) * (2 * A) < 2 ^ 53)%Z -> Forall (whole_bar A) p ->
    near_opt (fst (vortex_out len p)) (fst (vortex_out len (map xbar p))) /\ near_opt (snd (vortex_out len p)) (snd (vortex_out len (map xbar p))).
  Proof.
    intros A0 L LB W. assert (L2 : (2 * A < 2 ^ 53)%Z) by (assert (1 <= Z.of_nat len)%Z by lia; nia). unfold vortex_out. cbn [fst snd].
    destruct (each_whole (2 * A) vx_plus vx_plus xbar p) as [U1 U2]; [intros p' Ip; apply vx_whole; [exact L2|exact (prefix_bars _ _ _ W Ip)]|].
    destruct (each_whole (2 * A) vx_minus vx_minus xbar p) as [M1 M2]; [intros p' Ip; apply vx_whole; [exact L2|exact (prefix_bars _ _ _ W Ip)]|].
    destruct (each_whole (2 * A) (atr_out 1) (atr_out 1) xbar p) as [T1 T2]; [intros p' Ip; apply atr1_whole; [exact L2|exact (prefix_bars _ _ _ W Ip)]|].
    assert (A2 : (0 <= 2 * A)%Z) by lia.
    rewrite U2, M2, T2. destruct (sum_whole _ len _ A2 L LB U1) as [S1 V1]. destruct (sum_whole _ len _ A2 L LB M1) as [S2 V2]. destruct (sum_whole _ len _ A2 L LB T1) as [S3 V3].
    assert (L3 : (Z.of_nat len * (2 * A) < 2 ^ 53)%Z) by lia.
    rewrite V1, V2, V3. split; [exact (div_whole _ _ _ _ S1 S3 L3)|exact (div_whole _ _ _ _ S2 S3 L3)].
  Qed.
  Theorem C113_vortex A len c bs : (1 <= len)%nat -> (0 <= A)%Z -> ((Z.of_nat len + 1) * (2 * A) < 2 ^ 53)%Z -> Forall (whole_bar A) bs -> fresh_over c bs ->
    exists os, run_new (vortex_new len) vortex_step c (ticks (List.length bs)) = Ok os /\ List.length os = List.length bs /\
    forall i o, nth_error os i = Some o ->
      match full_window len (pairs (firstn (S i) (map real_bar bs))) with
      | None => o = (None, None)
      | Some w => shows (fst o) (vortex_ratio Rvp w) /\ shows (snd o) (vortex_ratio Rvm w)
      end.
  Proof.
    intros L A0 LB W H. rewrite (vortex_run len c bs L H (whole_hl _ _ W)). eexists; split; [reflexivity|]. split; [apply length_each_prefix|].
    intros i o Ho. apply nth_each in Ho. destruct Ho as [Hi ->].
    destruct (vortex_whole A len _ A0 L LB (firstn_bars _ _ (S i) W)) as [N1 N2].
    destruct (fresh_real (map real_bar bs)) as (c' & H'). destruct (C67_exact len c' _ L H') as (os' & R' & _ & X).
    pose proof (vortex_run len c' _ L H' (full_has_hl _)) as R2. rewrite map_length in R2. rewrite R' in R2. injection R2 as ->.
    specialize (X i (vortex_out len (firstn (S i) (map bar_of (map real_bar bs))))). rewrite nth_error_each_prefix in X by (rewrite !map_length; exact Hi). specialize (X eq_refl).
    rewrite (firstn_map bar_of), (firstn_map real_bar), map_map in X. rewrite firstn_map.
    change (map (fun x => bar_of (real_bar x)) (firstn (S i) bs)) with (map xbar (firstn (S i) bs)) in X.
    destruct (full_window len (pairs (map real_bar (firstn (S i) bs)))) as [w|].
    - destruct X as [X _]. rewrite X in N1, N2. cbn [fst snd] in N1, N2. split; apply near_option; assumption.
    - rewrite X in N1, N2. cbn [fst snd] in N1, N2. apply near_none in N1. apply near_none in N2. destruct (vortex_out len (firstn (S i) bs)). cbn [fst snd] in *. subst. reflexivity.
  Qed.

  (** ** Balance of power *)
  Theorem C113_bop A c bs : (2 * A < 2 ^ 53)%Z -> Forall (whole_bar A) bs -> fresh_over c bs ->
    exists os, run bop_step c tt (ticks (List.length bs)) = Ok os /\ List.length os = List.length bs /\
    forall i b o, nth_error bs i = Some b -> nth_error os i = Some o ->
      let r := real_bar b in
      (rh r = rl r -> o = None) /\
      (rh r <> rl r -> exists x, o = Some x /\ nearest_to x ((rc r - ro r) / (rh r - rl r)) /\ (consistent r -> -1 <= B2R x <= 1)).
  Proof.
    intros L W H. destruct (C53_bop c bs H) as (os & R & LN & X). exists os. split; [exact R|]. split; [exact LN|].
    intros i b o Hb Ho r. specialize (X i b Hb). rewrite Ho in X. apply some_eq in X. subst o.
    rewrite Forall_forall in W. destruct (W b (nth_error_In _ _ Hb)) as (op & h & l & cl & E1 & E2 & E3 & E4 & T1 & T2 & T3 & T4).
    subst r. unfold real_bar. rewrite E1, E2, E3, E4. cbn [rh rl rc ro value_of].
    rewrite eq_exact, (tk_fin e _ _ T2), (tk_fin e _ _ T3), fin_eq.
    destruct (Reqb_spec (B2R h) (B2R l)) as [Q|Q]; (split; [intros Q'|intros Q']); try reflexivity; try contradiction.
    replace (2 * A)%Z with (A + A)%Z in L by lia.
    destruct (tk_sub log10 e E0 _ _ _ _ T4 T1 L) as [P1 Q1]. destruct (tk_sub log10 e E0 _ _ _ _ T2 T3 L) as [P2 Q2]. change (N112 log10) with N113 in *.
    pose proof (ratio_nearest log10 e E0 _ _ _ _ P1 P2 L) as NR. change (N112 log10) with N113 in NR.
    rewrite Q1, Q2, (tk_fin e _ _ T1), (tk_fin e _ _ T2), (tk_fin e _ _ T3), (tk_fin e _ _ T4), !fin_sub, fin_div in NR by lra.
    specialize (NR _ eq_refl). eexists. split; [reflexivity|]. split; [exact NR|]. intros [C1 C2]. cbn [ro rh rl rc] in C1, C2.
    refine (round_between (-1) 1 _ _ ltac:(cbn; lia) ltac:(cbn; lia) _ NR).
    assert (P : 0 < B2R h - B2R l) by lra. pose proof (Rinv_0_lt_compat _ P) as PI.
    split; apply (Rmult_le_reg_r (B2R h - B2R l)); try exact P; unfold Rdiv; rewrite Rmult_assoc, Rinv_l by lra; lra.
  Qed.

  (** ** Highest and lowest *)
  Lemma beats_X (cmp : f64 -> f64 -> bool) (cmp' : xr -> xr -> bool) : (forall x y, cmp x y = cmp' (to_xr x) (to_xr y)) ->
    forall l x, to_xr (beats cmp x l) = beats cmp' (to_xr x) (map to_xr l).
  Proof. intros C. induction l as [|y l IH]; intros x; [reflexivity|]. cbn [map]. rewrite !beats_cons, IH, <- C. destruct (cmp y x); reflexivity. Qed.
  Lemma beats_in (cmp : f64 -> f64 -> bool) l : forall x, In (beats cmp x l) (x :: l).
  Proof.
    induction l as [|y l IH]; intros x; [left; reflexivity|]. rewrite beats_cons. destruct (IH (if cmp y x then y else x)) as [E|I].
    - rewrite <- E. destruct (cmp y x); [right; left; reflexivity|left; reflexivity].
    - right; right; exact I.
  Qed.
  Lemma best_whole A (cmp : f64 -> f64 -> bool) (cmp' : xr -> xr -> bool) len h : (forall x y, cmp x y = cmp' (to_xr x) (to_xr y)) -> whole e A h ->
    okb e A (best cmp (present (lastn len h))) /\ best cmp' (present (lastn len (X113 h))) = option_map to_xr (best cmp (present (lastn len h))).
  Proof.
    intros C W. rewrite lastn_map', present_X.
    assert (IN : forall x, In x (present (lastn len h)) -> tk A x).
    { intros x I. apply W, (lastn_In len). clear -I. induction (lastn len h) as [|[y|] l IHl]; cbn in *; [contradiction| |right; apply IHl, I]. destruct I as [->|I]; [left; reflexivity|right; apply IHl, I]. }
    destruct (present (lastn len h)) as [|x l]; [split; [apply okb_none|reflexivity]|]. cbn [map best option_map].
    split; [apply okb_some, IN, beats_in|]. rewrite (beats_X cmp cmp' C). reflexivity.
  Qed.
  Lemma hi_whole A len h : whole e A h -> okb e A (highest_out len 0 h) /\ highest_out len 0 (X113 h) = option_map to_xr (highest_out len 0 h).
  Proof. intros W. unfold highest_out. rewrite map_length. destruct (len <=? 0 + List.length h)%nat; [|split; [apply okb_none|reflexivity]]. apply best_whole; [|exact W]. intros x y. apply to_xr_lt. Qed.
  Lemma lo_whole A len h : whole e A h -> okb e A (lowest_out len 0 h) /\ lowest_out len 0 (X113 h) = option_map to_xr (lowest_out len 0 h).
  Proof. intros W. unfold lowest_out. rewrite map_length. destruct (len <=? 0 + List.length h)%nat; [|split; [apply okb_none|reflexivity]]. apply best_whole; [|exact W]. intros x y. apply to_xr_lt. Qed.
  Lemma column_whole A k k' g bs : column A k k' -> (forall r, k' (bar_of r) = Some (Fin (g r))) -> Forall (whole_bar A) bs ->
    whole e A (map k bs) /\ X113 (map k bs) = full (map g (map real_bar bs)).
  Proof.
    intros C G W. rewrite Forall_forall in W. split.
    - intros x I. apply in_map_iff in I. destruct I as (b & Eb & Ib). exact (proj1 (C b (W b Ib)) x Eb).
    - unfold full. rewrite !map_map. apply map_ext_in. intros b Ib. rewrite <- (proj2 (C b (W b Ib))). apply G.
  Qed.
  Lemma extrema_whole A len bs i b : (1 <= len)%nat -> Forall (whole_bar A) bs -> nth_error bs i = Some b ->
    match full_window len (firstn (S i) (map real_bar bs)) with
    | None => highest_out len 0 (map b_high (firstn (S i) bs)) = None /\ lowest_out len 0 (map b_low (firstn (S i) bs)) = None
    | Some w => exists u l, highest_out len 0 (map b_high (firstn (S i) bs)) = Some u /\ lowest_out len 0 (map b_low (firstn (S i) bs)) = Some l /\
        tk A u /\ tk A l /\ is_max (B2R u) (map rh w) /\ is_min (B2R l) (map rl w) /\ rh (real_bar b) <= B2R u /\ B2R l <= rl (real_bar b)
    end.
  Proof.
    intros L W Hb. destruct (columns A) as (_ & CH & CL & _).
    pose proof (firstn_bars _ _ (S i) W) as Wi.
    destruct (column_whole A _ _ rh _ CH (fun r => eq_refl) Wi) as [WH XH]. destruct (column_whole A _ _ rl _ CL (fun r => eq_refl) Wi) as [WL XL].
    destruct (hi_whole _ len _ WH) as [TH EH]. destruct (lo_whole _ len _ WL) as [TL EL]. rewrite XH, hi_full in EH. rewrite XL, lo_full in EL.
    rewrite (full_window_map rh) in EH. rewrite (full_window_map rl) in EL. rewrite firstn_map.
    assert (Hr : nth_error (map real_bar bs) i = Some (real_bar b)) by (rewrite nth_error_map, Hb; reflexivity).
    destruct (full_window len (map real_bar (firstn (S i) bs))) as [w|] eqn:Ew; cbn [option_map] in EH, EL.
    2:{ assert (NN : forall o : option f64, None = option_map to_xr o -> o = None) by (intros [y|] Ey; [discriminate Ey|reflexivity]). split; apply NN; [exact EH|exact EL]. }
    assert (IR : In (real_bar b) w) by (rewrite <- firstn_map in Ew; exact (window_has_newest _ _ _ _ _ L Hr Ew)).
    destruct (Rmaximum (map rh w)) as [u|] eqn:EU; [|destruct w; [destruct IR|discriminate EU]].
    destruct (Rminimum (map rl w)) as [l|] eqn:EM; [|destruct w; [destruct IR|discriminate EM]].
    apply Rmaximum_spec in EU. apply Rminimum_spec in EM. cbn [option_map] in EH, EL.
    destruct (highest_out len 0 (map b_high (firstn (S i) bs))) as [uf|]; [|discriminate EH]. destruct (lowest_out len 0 (map b_low (firstn (S i) bs))) as [lf|]; [|discriminate EL].
    cbn [option_map] in EH, EL. apply some_eq in EH. apply some_eq in EL. pose proof (TH uf eq_refl) as Tu. pose proof (TL lf eq_refl) as Tl.
    rewrite (tk_fin e _ _ Tu) in EH. rewrite (tk_fin e _ _ Tl) in EL.
    assert (Vu : B2R uf = u) by (clear -EH; congruence). assert (Vl : B2R lf = l) by (clear -EL; congruence).
    exists uf, lf. rewrite Vu, Vl. split; [reflexivity|]. split; [reflexivity|]. split; [exact Tu|]. split; [exact Tl|]. split; [exact EU|]. split; [exact EM|].
    destruct EU as [_ EU]. destruct EM as [_ EM]. rewrite Forall_forall in EU, EM. split; [apply EU, in_map, IR|apply EM, in_map, IR].
  Qed.
  (** ** Donchian channels *)
  Theorem C113_donchian A len c bs : (1 <= len)%nat -> (2 * A < 2 ^ 53)%Z -> Forall (whole_bar A) bs -> fresh_over c bs ->
    exists os, run_new (don_new len) don_step c (ticks (List.length bs)) = Ok os /\ List.length os = List.length bs /\
    forall i o, nth_error os i = Some o ->
      match full_window len (firstn (S i) (map real_bar bs)) with
      | None => o = (None, None, None)
      | Some w => exists u m l, o = (Some u, Some m, Some l) /\ is_finite u = true /\ is_finite l = true /\
          is_max (B2R u) (map rh w) /\ is_min (B2R l) (map rl w) /\ nearest_to m ((B2R u + B2R l) / 2)
      end.
  Proof.
    intros L LB W H. rewrite (don_run len c bs L H). eexists; split; [reflexivity|]. split; [apply length_each_prefix|].
    intros i o Ho. apply nth_each in Ho. destruct Ho as [Hi ->].
    destruct (nth_error bs i) as [b|] eqn:Hb; [|apply nth_error_None in Hb; lia].
    pose proof (extrema_whole A len bs i b L W Hb) as X. unfold don_out.
    destruct (full_window len (firstn (S i) (map real_bar bs))) as [w|].
    - destruct X as (u & l & -> & -> & Tu & Tl & MU & ML & _). replace (2 * A)%Z with (A + A)%Z in LB by lia.
      destruct (tk_add log10 e E0 _ _ _ _ Tu Tl LB) as [P Q]. change (N112 log10) with N113 in *.
      exists u, (fdiv (fadd u l) (@fnat f64 N113 2)), l. split; [reflexivity|]. split; [apply Tu|]. split; [apply Tl|]. split; [exact MU|]. split; [exact ML|].
      pose proof (tk_over _ _ 2 P LB ltac:(lia) ltac:(cbn; lia)) as NR. change (INR 2) with 2 in NR.
      replace (B2R u + B2R l) with (B2R (fadd u l)); [exact NR|].
      rewrite (tk_fin e _ _ P), (tk_fin e _ _ Tu), (tk_fin e _ _ Tl), fin_add in Q. clear -Q. congruence.
    - destruct X as [-> ->]. reflexivity.
  Qed.
  (** ** Williams %R *)
  Lemma ratio_ticks a b x y : tk a x -> tk b y -> B2R y <> 0 -> Rabs (B2R x / B2R y) <= IZR a.
  Proof.
    intros (Fx & z1 & E1 & B1) (Fy & z2 & E2 & B2) NZ. rewrite E1, E2 in *. pose proof (bpow_gt_0 radix2 e) as U0.
    assert (Z2 : IZR z2 <> 0) by (intros Q; apply NZ; rewrite Q; ring).
    replace (IZR z1 * bpow radix2 e / (IZR z2 * bpow radix2 e)) with (IZR z1 / IZR z2) by (field; split; lra).
    assert (N1 : (1 <= Z.abs z2)%Z) by (assert (z2 <> 0%Z) by (intros ->; apply Z2; reflexivity); lia).
    unfold Rdiv. rewrite Rabs_mult, Rabs_inv, <- !abs_IZR. apply IZR_le in N1, B1. rewrite <- (Rmult_1_r (IZR a)).
    apply Rmult_le_compat; [apply IZR_le; lia|apply Rlt_le, Rinv_0_lt_compat; lra|exact B1|]. rewrite <- Rinv_1. apply Rinv_le_contravar; lra.
  Qed.
  Lemma Rabs_def2' x a : Rabs x <= a -> - a <= x /\ x <= a.
  Proof. unfold Rabs. destruct (Rcase_abs x); lra. Qed.
  Lemma mul_nearest (x y : f64) : is_finite x = true -> is_finite y = true -> Rabs (B2R x * B2R y) <= bpow radix2 1022 -> nearest_to (fmul x y) (B2R x * B2R y).
  Proof.
    intros Fx Fy B. pose proof (Bmult_correct 53 1024 _ _ mode_NE x y) as C.
    rewrite Rlt_bool_true in C by (apply rnd_fits; exact B). destruct C as (E & Fz & _).
    split; [change (fmul x y) with (Bmult mode_NE x y); rewrite Fz, Fx, Fy; reflexivity|exact E].
  Qed.
  Theorem C113_williams A len c src vs bs : (1 <= len)%nat -> (2 * A < 2 ^ 53)%Z -> List.length vs = List.length bs ->
    Forall (tk A) vs -> Forall (whole_bar A) bs -> feeds c src (map Some vs) -> fresh_over c bs ->
    exists os, run_new (wpr_new src len) wpr_step c (ticks (List.length bs)) = Ok os /\ List.length os = List.length bs /\
    forall i v b o, nth_error vs i = Some v -> nth_error bs i = Some b -> nth_error os i = Some o ->
      match full_window len (firstn (S i) (map real_bar bs)) with
      | None => o = None
      | Some w => exists u l, is_max u (map rh w) /\ is_min l (map rl w) /\
          (u = l -> o = None) /\
          (u <> l -> exists r x, o = Some x /\ nearest_to r ((B2R v - u) / (u - l)) /\ nearest_to x (100 * B2R r) /\
             (rl (real_bar b) <= B2R v <= rh (real_bar b) -> -100 <= B2R x <= 0))
      end.
  Proof.
    intros L LB LN WV W HF H. assert (LN' : List.length (map Some vs) = List.length bs) by (rewrite map_length; exact LN).
    destruct (C52_williams len c src _ bs L LN' HF H) as (us & ls & os & R1 & R2 & R3 & E).
    exists os. split; [exact R3|]. pose proof (fresh_c_index _ _ H) as Z.
    rewrite (makes_run _ _ _ _ c _ (highest_makes len L) Logic.I), Z in R1. rewrite (makes_run _ _ _ _ c _ (lowest_makes len L) Logic.I), Z in R2.
    injection R1 as <-. injection R2 as <-.
    split; [subst os; unfold zip3, zip; rewrite map_length, !combine_length, !length_each_prefix, !map_length; lia|].
    intros i v b o Hv Hb Ho. assert (Li : (i < List.length bs)%nat) by (apply nth_error_Some; rewrite Hb; discriminate).
    subst os. unfold zip3, zip in Ho. rewrite nth_error_map in Ho.
    rewrite (nth_error_combine _ _ i (Some v, highest_out len 0 (firstn (S i) (map b_high bs))) (lowest_out len 0 (firstn (S i) (map b_low bs)))) in Ho.
    2:{ apply nth_error_combine; [apply map_nth_error, Hv|]. apply nth_error_each_prefix. rewrite map_length. exact Li. }
    2:{ apply nth_error_each_prefix. rewrite map_length. exact Li. }
    cbn [option_map fst snd] in Ho. apply some_eq in Ho. subst o. rewrite !firstn_map.
    pose proof (extrema_whole A len bs i b L W Hb) as X. rewrite firstn_map in X. destruct (full_window len (map real_bar (firstn (S i) bs))) as [w|].
    2:{ destruct X as [X1 X2]. rewrite X1. reflexivity. }
    destruct X as (u & l & -> & -> & Tu & Tl & MU & ML & GU & GL). exists (B2R u), (B2R l). split; [exact MU|]. split; [exact ML|].
    rewrite Forall_forall in WV. pose proof (WV v (nth_error_In _ _ Hv)) as Tv. replace (2 * A)%Z with (A + A)%Z in LB by lia.
    destruct (tk_sub log10 e E0 _ _ _ _ Tu Tl LB) as [P1 Q1]. destruct (tk_sub log10 e E0 _ _ _ _ Tv Tu LB) as [P2 Q2]. change (N112 log10) with N113 in *.
    assert (EQ : feqb (fsub u l) (@fZ f64 N113 0) = Reqb (B2R u - B2R l) 0).
    { rewrite eq_exact, Q1, (tk_fin e _ _ Tu), (tk_fin e _ _ Tl), fin_sub, (proj2 (proj2 (tk_Z 0 ltac:(cbn; lia)))). apply fin_eq. }
    rewrite EQ. destruct (Reqb_spec (B2R u - B2R l) 0) as [Q|Q].
    { split; [reflexivity|]. intros Q'. exfalso. lra. }
    split; [intros Q'; exfalso; lra|]. intros _.
    pose proof (ratio_nearest log10 e E0 _ _ _ _ P2 P1 LB) as NR. change (N112 log10) with N113 in NR.
    rewrite Q1, Q2, (tk_fin e _ _ Tu), (tk_fin e _ _ Tv), (tk_fin e _ _ Tl), !fin_sub, fin_div in NR by exact Q. specialize (NR _ eq_refl).
    exists (fdiv (fsub v u) (fsub u l)). eexists. split; [reflexivity|]. split; [exact NR|].
    set (r := fdiv (fsub v u) (fsub u l)) in *.
    pose proof (ratio_ticks _ _ _ _ P2 P1) as QB. assert (A0 : (0 <= A)%Z) by (destruct Tv as (_ & z & _ & B); lia).
    assert (SU : B2R (fsub u l) = B2R u - B2R l) by (rewrite (tk_fin e _ _ P1), (tk_fin e _ _ Tu), (tk_fin e _ _ Tl), fin_sub in Q1; clear -Q1; congruence).
    assert (SV : B2R (fsub v u) = B2R v - B2R u) by (rewrite (tk_fin e _ _ P2), (tk_fin e _ _ Tu), (tk_fin e _ _ Tv), fin_sub in Q2; clear -Q2; congruence).
    rewrite SU, SV in QB. specialize (QB Q). apply Rabs_def2' in QB. destruct QB as [QB1 QB2]. rewrite <- opp_IZR in QB1.
    pose proof (round_between (- (A + A)) (A + A) _ _ ltac:(lia) ltac:(lia) (conj QB1 QB2) NR) as RB. rewrite opp_IZR in RB.
    destruct (tk_Z 100 ltac:(cbn; lia)) as (F1 & V1 & _). destruct NR as [Fr Vr].
    assert (NX : nearest_to (fmul r (@fZ f64 N113 100)) (100 * B2R r)).
    { rewrite Rmult_comm, <- V1. apply mul_nearest; [exact Fr|exact F1|]. rewrite V1, Rabs_mult, (Rabs_pos_eq 100) by lra.
      apply Rle_trans with (bpow radix2 53 * bpow radix2 7); [|rewrite <- bpow_plus; apply bpow_le; lia].
      apply Rmult_le_compat; [apply Rabs_pos|lra| |cbn; lra]. apply Rle_trans with (IZR (A + A)); [apply Rabs_le; exact RB|].
      change (bpow radix2 53) with (IZR (2 ^ 53)). apply IZR_le. lia. }
    split; [exact NX|]. intros V.
    refine (round_between (-100) 0 _ _ ltac:(cbn; lia) ltac:(cbn; lia) _ NX).
    assert (-1 <= B2R r <= 0); [|lra].
    refine (round_between (-1) 0 ((B2R v - B2R u) / (B2R u - B2R l)) _ ltac:(cbn; lia) ltac:(cbn; lia) _ (conj Fr Vr)).
    assert (P : 0 < B2R u - B2R l) by lra.
    split; apply (Rmult_le_reg_r (B2R u - B2R l)); try exact P; unfold Rdiv; rewrite Rmult_assoc, Rinv_l by lra; lra.
  Qed.

  (** ** Consequences *)
  (** Both absent, or the same number. *)
  Definition same_number (o o' : option f64) : Prop :=
    match o, o' with Some x, Some y => is_finite x = true /\ is_finite y = true /\ B2R x = B2R y | None, None => True | _, _ => False end.
  Lemma window_tail {X} len (h t : list (option X)) : List.length t = len -> window len (h ++ t) = all_some t.
  Proof. intros <-. unfold window. rewrite app_length, (proj2 (Nat.leb_le _ _)) by lia. rewrite lastn_app_r' by reflexivity. reflexivity. Qed.
  (** Whatever came before, equal windows give equal averages. *)
  Theorem C113_forgets A len c c' xs ys t : (1 <= len)%nat -> (Z.of_nat len <= 2 ^ 53)%Z -> ((Z.of_nat len + 1) * A < 2 ^ 53)%Z -> (0 <= A)%Z -> List.length t = len ->
    whole e A (xs ++ t) -> whole e A (ys ++ t) ->
    exists os ps o p, run_new (sma_new len) sma_step c (xs ++ t) = Ok (os ++ [o]) /\ run_new (sma_new len) sma_step c' (ys ++ t) = Ok (ps ++ [p]) /\ same_number o p.
  Proof.
    intros L L2 LB A0 LT W1 W2.
    assert (G : forall c hs, whole e A (hs ++ t) -> exists os o, run_new (sma_new len) sma_step c (hs ++ t) = Ok (os ++ [o]) /\
      match all_some t with None => o = None | Some w => exists v, o = Some v /\ nearest_to v (Rsum (map B2R w) / INR len) end).
    { intros d hs W. destruct (C113_sma A len d _ L L2 LB A0 W) as (os & R1 & R2 & R3). destruct os as [|o os _] using rev_ind.
      - rewrite app_length in R2. cbn in R2. lia.
      - exists os, o. split; [exact R1|]. rewrite app_length in R2. cbn [List.length] in R2.
        specialize (R3 (List.length os) o). rewrite nth_error_app2, Nat.sub_diag in R3 by lia. specialize (R3 eq_refl).
        rewrite firstn_all2, (window_tail _ _ _ LT) in R3 by lia. exact R3. }
    destruct (G c xs W1) as (os & o & R1 & V1). destruct (G c' ys W2) as (ps & p & R2 & V2). exists os, ps, o, p. split; [exact R1|]. split; [exact R2|].
    destruct (all_some t) as [w|]; [|subst; exact I]. destruct V1 as (v1 & -> & F1 & V1). destruct V2 as (v2 & -> & F2 & V2). split; [exact F1|]. split; [exact F2|]. rewrite V1, V2. reflexivity.
  Qed.
  (** The average of a window lies between any two f64 bounds on the window. *)
  Theorem C113_between A len c xs (a b : f64) : (1 <= len)%nat -> (Z.of_nat len <= 2 ^ 53)%Z -> ((Z.of_nat len + 1) * A < 2 ^ 53)%Z -> (0 <= A)%Z -> whole e A xs ->
    exists os, run_new (sma_new len) sma_step c xs = Ok os /\
    forall i v w, nth_error os i = Some (Some v) -> window len (firstn (S i) xs) = Some w -> Forall (fun x => B2R a <= B2R x <= B2R b) w -> B2R a <= B2R v <= B2R b.
  Proof.
    intros L L2 LB A0 W. destruct (C113_sma A len c _ L L2 LB A0 W) as (os & R1 & _ & R3). exists os. split; [exact R1|].
    intros i v w Hv Ew H. specialize (R3 i _ Hv). rewrite Ew in R3. destruct R3 as (v' & Ev & _ & V). apply some_eq in Ev. subst v'. rewrite V.
    assert (KP : 0 < INR len) by (apply lt_0_INR; lia). pose proof (window_length _ _ _ Ew) as LW.
    assert (S : INR (List.length w) * B2R a <= Rsum (map B2R w) <= INR (List.length w) * B2R b).
    { clear -H. induction H as [|x w Hx _ IH]; [cbn; lra|]. cbn [map Rsum List.length]. rewrite S_INR. lra. }
    rewrite LW in S. pose proof (fexp_correct 53 1024 eq_refl) as VE.
    split; [apply round_ge_generic|apply round_le_generic]; auto with typeclass_instances; try apply generic_format_B2R;
      apply (Rmult_le_reg_r (INR len)); try exact KP; unfold Rdiv; rewrite Rmult_assoc, Rinv_l by lra; lra.
  Qed.
  (** Raising prices never lowers an average. *)
  Theorem C113_monotone A len c xs ys : (1 <= len)%nat -> (Z.of_nat len <= 2 ^ 53)%Z -> ((Z.of_nat len + 1) * A < 2 ^ 53)%Z -> (0 <= A)%Z -> whole e A xs -> whole e A ys ->
    Forall2 below xs ys ->
    exists os ps, run_new (sma_new len) sma_step c xs = Ok os /\ run_new (sma_new len) sma_step c ys = Ok ps /\
    Forall2 below os ps.
  Proof.
    intros L L2 LB A0 W1 W2 H. destruct (C113_sma A len c _ L L2 LB A0 W1) as (os & R1 & N1 & S1). destruct (C113_sma A len c _ L L2 LB A0 W2) as (ps & R2 & N2 & S2).
    exists os, ps. split; [exact R1|]. split; [exact R2|]. pose proof (forall2_len _ _ _ H) as LN.
    apply forall2_nth; [lia|]. intros i o p Ho Hp. specialize (S1 i o Ho). specialize (S2 i p Hp).
    assert (WW : match window len (firstn (S i) xs), window len (firstn (S i) ys) with
                 | Some w, Some w' => Rsum (map B2R w) <= Rsum (map B2R w') | None, None => True | _, _ => False end).
    { apply window_below, firstn_below, H. }
    destruct (window len (firstn (S i) xs)) as [w|], (window len (firstn (S i) ys)) as [w'|]; try contradiction; [|subst; exact Logic.I].
    destruct S1 as (v & -> & _ & V). destruct S2 as (v' & -> & _ & V'). unfold below. rewrite V, V'. pose proof (fexp_correct 53 1024 eq_refl) as VE.
    apply round_le; auto with typeclass_instances. apply Rmult_le_compat_r; [|exact WW]. apply Rlt_le, Rinv_0_lt_compat, lt_0_INR. lia.
  Qed.
End Whole.

(** The hypotheses are met: the six bars of the examples, in whole units and in 1/256ths,
    with room for a window of 5000 bars of prices up to a million in 1/256ths. *)
Lemma bars6_whole e A : (-1074 <= e <= 0)%Z -> (1000 * 2 ^ (- e) <= A)%Z -> Forall (whole_bar e A) bars6.
Proof.
  intros E HA. assert (P : (0 < 2 ^ (- e))%Z) by (apply Z.pow_pos_nonneg; lia).
  assert (T : forall z, (Z.abs z <= 1000)%Z -> ticks_of e A (q z)) by (intros z Hz; apply ticks_int; [exact E|lia|nia]).
  assert (G : forall o h l c v, (Z.abs o <= 1000)%Z -> (Z.abs h <= 1000)%Z -> (Z.abs l <= 1000)%Z -> (Z.abs c <= 1000)%Z -> whole_bar e A (qbar (o, h, l, c, v))).
  { intros o h l c v H1 H2 H3 H4. exists (q o), (q h), (q l), (q c). split; [reflexivity|]. split; [reflexivity|]. split; [reflexivity|]. split; [reflexivity|]. auto. }
  unfold bars6. cbn [map]. repeat (constructor; [apply G; lia|]). constructor.
Qed.
Example C113_holds : Forall (whole_bar 0 1000) bars6 /\ Forall (whole_bar (-8) 256000) bars6 /\ fresh_over ctx6 bars6 /\
  ((2 + 1) * (2 * 256000) < 2 ^ 53)%Z /\ ((5000 + 1) * (2 * (1000000 * 256)) < 2 ^ 53)%Z.
Proof. split; [apply bars6_whole; cbn; lia|]. split; [apply bars6_whole; cbn; lia|]. split; [apply ctx6_fresh|]. lia. Qed.
(** The bound on the size of prices cannot be dropped: one price of 2^53 ticks, and a
    later average over unit prices is lower than it would be after a price of zero
    ([C105_sma_f64_not_monotone]; [C99_refuted] for every length). *)
Example C113_bound : whole 0 (2 ^ 53) [Some (q (2 ^ 53)); Some (q 1); Some (q 0)] /\ whole 0 (2 ^ 53) [Some (q 0); Some (q 1); Some (q 0)] /\
  exists v w, gives same_opt (run_new (sma_new 2) sma_step ctx_bare [Some (q 0); Some (q 1); Some (q 0)]) [None; Some (lit 1 2); Some v] = true /\
    gives same_opt (run_new (sma_new 2) sma_step ctx_bare [Some (q (2 ^ 53)); Some (q 1); Some (q 0)]) [None; Some (lit (2 ^ 52) 1); Some w] = true /\ Bltb w v = true.
Proof.
  assert (T : forall z, (Z.abs z <= 2 ^ 53)%Z -> ticks_of 0 (2 ^ 53) (q z)) by (intros z Hz; apply ticks_int; lia).
  assert (G : forall zs, (forall z, In z zs -> (Z.abs z <= 2 ^ 53)%Z) -> whole 0 (2 ^ 53) (qs zs)).
  { intros zs B x I. unfold qs in I. apply in_map_iff in I. destruct I as (z & E1 & I). apply some_eq in E1. subst x. apply T, B, I. }
  split; [apply (G [2 ^ 53; 1; 0]%Z); cbn; intuition (subst; cbn; lia)|]. split; [apply (G [0; 1; 0]%Z); cbn; intuition (subst; cbn; lia)|].
  exists (lit 1 2), (q 0). vm_compute. auto.
Qed.
