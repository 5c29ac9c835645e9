(** * PropTa3: C21-C25 (ranks, Rsi, Stoch, Tr, Atr, crosses). *)
From Flocq Require Import Core IEEE754.BinarySingleNaN.
From Verif Require Import PTa4 PExact2 PIeee PContent1 Inst.
Local Open Scope nat_scope.

Lemma newest_firstn {A} (xs : list A) i x : nth_error xs i = Some x -> newest (firstn (S i) xs) = Some x.
Proof.
  intros H. assert (i < length xs) by (apply nth_error_Some; congruence).
  unfold newest. rewrite firstn_length_le by lia. replace (S i - 1) with i by lia. rewrite nth_error_firstn_lt by lia. exact H.
Qed.
Lemma removelast_firstn_S {A} (xs : list A) i : i < length xs -> removelast (firstn (S i) xs) = firstn i xs.
Proof. intros H. apply removelast_firstn. exact H. Qed.
Lemma firstn_S_nth {A} (xs : list A) i x : nth_error xs i = Some x -> firstn (S i) xs = firstn i xs ++ [x].
Proof.
  revert i; induction xs as [|y xs IH]; intros [|i] H; cbn in H; try discriminate.
  - injection H as ->. reflexivity.
  - rewrite firstn_cons, (IH i H). reflexivity.
Qed.

(** ** C21 *)
Section C21.
  Context {F : Type} {NF : Num F}.
  Local Open Scope num_scope.
  (** How many of the present values of [l] are at most [v]. *)
  Definition count_le (v : F) (l : list (option F)) : nat :=
    length (filter (fun y => match y with Some u => u <=? v | None => false end) l).
  Theorem C21_prank len (c : ctx F) xs : (1 <= len)%nat -> c_index c = 0 ->
    exists os, run_new (prank_new len) prank_step c xs = Ok os /\ length os = length xs /\
    forall i x, nth_error xs i = Some x ->
      nth_error os i = Some
        match x with
        | None => None
        | Some v => if (i <? len)%nat then None
                    else Some (fnat (count_le v (lastn len (firstn i xs))) / fnat len * fZ 100)
        end.
  Proof.
    intros L Z. rewrite (makes_run _ _ _ _ c xs (prank_makes len L) I), Z.
    eexists; split; [reflexivity|]. split; [apply length_each_prefix|]. intros i x Hx.
    assert (Hi : (i < length xs)%nat) by (apply nth_error_Some; congruence).
    rewrite nth_error_each_prefix by exact Hi. unfold prank_out. rewrite (newest_firstn xs i x Hx), removelast_firstn_S by exact Hi.
    cbn [join]. destruct x as [v|]; [|reflexivity]. rewrite firstn_length_le by lia. cbn [Nat.add].
    destruct (Nat.ltb_spec len (S i)), (Nat.ltb_spec i len); try lia; reflexivity.
  Qed.
End C21.
Lemma count_le_len {F} {NF : Num F} (v : F) l n : length l <= n -> count_le v l <= n.
Proof. unfold count_le. intros H. etransitivity; [|exact H]. clear H. induction l as [|x l IH]; [constructor|].
  cbn [filter]. destruct (match x with Some u => (u <=? v)%num | None => false end); cbn [length]; lia. Qed.
(** In exact arithmetic: the percentage of the previous [len] values. *)
Theorem C21_prank_exact len c xs : 1 <= len -> c_index c = 0 ->
  exists os, run_new (prank_new len) prank_step c (lift xs) = Ok os /\
  forall i v, nth_error xs i = Some (Some v) -> len <= i ->
    nth_error os i = Some (Some (Fin (100 * INR (count_le (Fin v) (lift (lastn len (firstn i xs)))) / INR len))).
Proof.
  intros L Z. destruct (C21_prank len c (lift xs) L Z) as (os & E & _ & H). exists os. split; [exact E|].
  intros i v Hv Hi. rewrite (H i (Some (Fin v))).
  - destruct (Nat.ltb_spec i len); [lia|]. rewrite lift_firstn, lift_lastn. rewrite !fin_nat, fin_Z, fin_div, fin_mul.
    + do 3 f_equal. field. apply not_0_INR; lia.
    + apply not_0_INR; lia.
  - unfold lift. rewrite (map_nth_error _ _ _ Hv). reflexivity.
Qed.
(** Between 0 and 100 in f64. *)
Theorem C21_prank_range (log10 : f64 -> f64) len (c : ctx f64) xs os i v :
  1 <= len -> (Z.of_nat len <= 2 ^ 53)%Z -> c_index c = 0 ->
  run_new (@prank_new f64 len) (@prank_step f64 (IEEE log10)) c xs = Ok os ->
  nth_error os i = Some (Some v) -> Bleb (f64_ofZ 0) v = true /\ Bleb v (f64_ofZ 100) = true.
Proof.
  intros L L53 Z E H. destruct (@C21_prank f64 (IEEE log10) len c xs L Z) as (os' & E' & EL & P).
  rewrite E in E'; injection E' as <-.
  assert (Hi : i < length xs) by (rewrite <- EL; apply nth_error_Some; congruence).
  destruct (nth_error xs i) as [x|] eqn:Hx; [|apply nth_error_None in Hx; lia].
  rewrite (P i x Hx) in H. injection H as H. destruct x as [u|]; [|discriminate].
  destruct (i <? len) eqn:B; [discriminate|]. injection H as <-.
  apply (percent_range log10); [|exact L|exact L53]. apply count_le_len. rewrite length_lastn. lia.
Qed.
Example C21_ex : gives same_opt (run_new (prank_new 4) prank_step ctx6 (qs [1; 2; 3; 9; 3; 0]%Z))
  [None; None; None; None; Some (q 75); Some (q 0)] = true.
Proof. vm_compute. reflexivity. Qed.

(** ** C22 *)
Theorem C22_rsi_formula len c k (vs : list R) : 2 <= len ->
  run_new (rsi_new len) rsi_step c (repeat None k ++ full vs) =
  Ok (repeat None k ++ each_prefix (Rrsi len) vs).
Proof. intros L. rewrite full_map. apply rsi_run_exact; exact L. Qed.
Theorem C22_rsi_rising len c vs os i v : 2 <= len -> rising vs ->
  run_new (rsi_new len) rsi_step c (full vs) = Ok os -> nth_error os i = Some (Some v) -> v = Fin 100.
Proof.
  intros L H E Hv. pose proof (C22_rsi_formula len c 0 vs L) as G. cbn [repeat app] in G. rewrite E in G. injection G as ->.
  apply nth_each in Hv. destruct Hv as [_ Hv]. symmetry in Hv. eapply Rrsi_rising; [exact L| |exact Hv].
  unfold rising in *. clear - H. revert i. induction vs as [|x vs IH]; intros i; [rewrite firstn_nil; constructor|].
  destruct vs as [|y vs]; [destruct i; constructor|]. inversion H as [|? ? A B]; subst. destruct i as [|i]; [constructor|].
  change (firstn (S (S i)) (x :: y :: vs)) with (x :: firstn (S i) (y :: vs)).
  specialize (IH B i). cbn [firstn] in *. constructor; [exact A|exact IH].
Qed.
Theorem C22_rsi_falling len c vs os i v : 2 <= len -> falling vs ->
  run_new (rsi_new len) rsi_step c (full vs) = Ok os -> nth_error os i = Some (Some v) -> v = Fin 0.
Proof.
  intros L H E Hv. pose proof (C22_rsi_formula len c 0 vs L) as G. cbn [repeat app] in G. rewrite E in G. injection G as ->.
  apply nth_each in Hv. destruct Hv as [_ Hv]. symmetry in Hv. eapply Rrsi_falling; [exact L| |exact Hv].
  unfold falling in *. clear - H. revert i. induction vs as [|x vs IH]; intros i; [rewrite firstn_nil; constructor|].
  destruct vs as [|y vs]; [destruct i; constructor|]. inversion H as [|? ? A B]; subst. destruct i as [|i]; [constructor|].
  change (firstn (S (S i)) (x :: y :: vs)) with (x :: firstn (S i) (y :: vs)).
  specialize (IH B i). cbn [firstn] in *. constructor; [exact A|exact IH].
Qed.
Section C22.
  Context {F : Type} {NF : Num F}.
  Lemma snoc_pair {A} (l : list A) x : exists y t, l ++ [x] = t ++ [y] /\ y = x /\ t = l.
  Proof. exists x, l. auto. Qed.
  Lemma length_gains_present (g : option F -> option F -> option F) k vs :
    (forall p v, g (Some p) (Some v) <> None) -> (forall v, g None v = None) -> (forall p, g p None = None) ->
    length (present (each_prefix (fun p => g (join (ago 1 p)) (join (newest p))) (warm k vs))) = length vs - 1.
  Proof.
    intros G1 G2 G3. induction vs as [|v vs IH] using rev_ind.
    - rewrite warm_nil_repeat. cbn [length Nat.sub]. induction k as [|k IH]; [reflexivity|].
      change (repeat None (S k)) with (@None F :: repeat None k). rewrite repeat_cons, each_prefix_snoc, present_app', app_length, IH.
      rewrite newest_snoc. cbn [join]. rewrite G3. reflexivity.
    - rewrite warm_snoc, each_prefix_snoc, present_app', app_length, IH, newest_snoc, app_length. cbn [join length].
      rewrite ago_S_snoc. destruct vs as [|u vs _] using rev_ind.
      + rewrite warm_nil_repeat. destruct k as [|k]; [cbn; rewrite G2; reflexivity|].
        change (repeat None (S k)) with (@None F :: repeat None k). rewrite repeat_cons, ago_0_snoc. cbn [join]. rewrite G2. reflexivity.
      + rewrite warm_snoc, ago_0_snoc. cbn [join]. rewrite app_length. cbn [length].
        destruct (g (Some u) (Some v)) eqn:E; [cbn; lia|destruct (G1 u v E)].
  Qed.
  (** On gap-free input (after any warm-up) it never panics and the first value
      comes at the [len]-th bar after the first input. *)
  Theorem C22_rsi_defined len (c : ctx F) k vs : 2 <= len ->
    exists os, run_new (rsi_new len) rsi_step c (warm k vs) = Ok os /\
      map is_some os = map (fun i => k + len <=? i) (seq 0 (k + length vs)).
  Proof.
    intros L. rewrite (makes_run _ _ _ _ c (warm k vs) (rsi_makes len L)); [|exists k, vs; reflexivity].
    eexists; split; [reflexivity|]. rewrite each_prefix_map. unfold each_prefix, prefixes. rewrite map_map.
    assert (LW : length (warm k vs) = k + length vs) by (unfold warm; rewrite app_length, repeat_length, map_length; reflexivity).
    rewrite LW. apply map_ext_in. intros i Hi. apply in_seq in Hi. rewrite warm_prefix.
    unfold rsi_out, ema_out.
    assert (A : forall l alpha, length l = (S i - k) - 1 -> is_some (@ema_val F NF alpha len l) = (k + len <=? i)).
    { intros l alpha HL. unfold ema_val. destruct (Nat.eqb_spec len 1); [lia|]. rewrite HL.
      destruct (Nat.ltb_spec (S i - k - 1) len), (Nat.leb_spec (k + len) i); try lia; reflexivity. }
    assert (B : forall a b, is_some (@rsi_val F NF a b) = is_some a && is_some b) by (intros [|] [|]; reflexivity).
    rewrite B, !A; [apply andb_diag| |].
    - unfold losses. rewrite length_gains_present; [rewrite firstn_length; lia|intros; discriminate|reflexivity|intros [|]; reflexivity].
    - unfold gains. rewrite length_gains_present; [rewrite firstn_length; lia|intros; discriminate|reflexivity|intros [|]; reflexivity].
  Qed.
End C22.
(** In f64, for every gap-free input whatever its values. *)
Theorem C22_rsi_range (log10 : f64 -> f64) len (c : ctx f64) k vs os i v :
  2 <= len -> (Z.of_nat len <= 2 ^ 53)%Z ->
  run_new (@rsi_new f64 (IEEE log10) len) (@rsi_step f64 (IEEE log10)) c (warm k vs) = Ok os ->
  nth_error os i = Some (Some v) ->
  is_nan v = true \/ (Bleb (f64_ofZ 0) v = true /\ Bleb v (f64_ofZ 100) = true).
Proof.
  intros L L53 E H. rewrite (makes_run _ _ _ _ c (warm k vs) (@rsi_makes f64 (IEEE log10) len L)) in E; [|exists k, vs; reflexivity].
  injection E as <-. apply nth_each in H. destruct H as [_ H]. symmetry in H. revert H. apply rsi_out_range; assumption.
Qed.
(** In exact arithmetic it is a number within [0,100] unless nothing moved. *)
Theorem C22_rsi_range_exact len c vs os i v : 2 <= len ->
  run_new (rsi_new len) rsi_step c (full vs) = Ok os -> nth_error os i = Some (Some v) ->
  (exists r, v = Fin r /\ (0 <= r <= 100)%R) \/ (v = XNaN /\ Rlosses (firstn (S i) vs) = repeat 0%R i /\ Rgains (firstn (S i) vs) = repeat 0%R i).
Proof.
  intros L E Hv. pose proof (C22_rsi_formula len c 0 vs L) as G. cbn [repeat app] in G. rewrite E in G. injection G as ->.
  apply nth_each in Hv. destruct Hv as [Hi Hv]. symmetry in Hv.
  set (p := firstn (S i) vs) in *. assert (LP : length p = S i) by (apply firstn_length_le; lia).
  pose proof (Rrsi_range len p v L Hv) as RG. destruct v as [r| | |]; try contradiction; [left; eauto|].
  right. split; [reflexivity|]. unfold Rrsi in Hv.
  destruct (Rsmooth _ len (Rgains p)) as [u|] eqn:EU; [|discriminate]. destruct (Rsmooth _ len (Rlosses p)) as [d|] eqn:ED; [|discriminate].
  injection Hv as Hv. unfold Rrsi_of in Hv. destruct (Req_EM_T d 0); [|discriminate]. destruct (Req_EM_T u 0); [|discriminate]. subst.
  assert (Z : forall l n, 2 <= n -> Rsmooth (1 / INR n) n l = Some 0%R -> Forall (fun x => (0 <= x)%R) l -> l = repeat 0%R (length l)).
  { clear. intros l n Ln E P. unfold Rsmooth in E. destruct (Nat.ltb_spec (length l) n); [discriminate|]. injection E as E.
    rewrite <- (firstn_skipn n l) in P. apply Forall_app in P. destruct P as [P1 P2].
    assert (A : (0 < 1 / INR n <= / 2)%R).
    { assert (2 <= INR n)%R by (change 2%R with (INR 2); apply le_INR; lia). split; [apply Rdiv_lt_0_compat; lra|].
      unfold Rdiv. rewrite Rmult_1_l. apply Rinv_le_contravar; lra. }
    assert (FZ : forall m a, (0 <= a)%R -> Forall (fun x => (0 <= x)%R) m ->
      fold_left (fun e v => (1 / INR n * v + (1 - 1 / INR n) * e)%R) m a = 0%R -> a = 0%R /\ m = repeat 0%R (length m)).
    { induction m as [|y m IH]; intros a Ha HP HE; [cbn in *; auto|]. inversion HP as [|? ? P0 PM]; subst. cbn in HE.
      apply IH in HE; [|nra|exact PM]. destruct HE as [HE ->]. assert (y = 0%R) by nra. assert (a = 0%R) by nra. subst.
      split; [reflexivity|]. cbn. rewrite repeat_length. reflexivity. }
    assert (M0 : (0 <= Rsum (firstn n l))%R) by (apply Rsum_nonneg; exact P1).
    assert (LN : length (firstn n l) = n) by (rewrite firstn_length_le; lia).
    apply FZ in E; [|unfold Rmean; rewrite LN; apply Rmult_le_pos; [exact M0|left; apply Rinv_0_lt_compat; apply PExact.INR_pos; lia]|exact P2].
    destruct E as [EM ES]. unfold Rmean in EM. rewrite LN in EM.
    assert (S0 : Rsum (firstn n l) = 0%R).
    { apply Rmult_eq_reg_r with (/ INR n)%R; [rewrite Rmult_0_l; exact EM|]. apply Rinv_neq_0_compat. apply not_0_INR; lia. }
    assert (SZ : forall m, Forall (fun x => (0 <= x)%R) m -> Rsum m = 0%R -> m = repeat 0%R (length m)).
    { induction m as [|y m IH]; intros HP HE; [reflexivity|]. inversion HP as [|? ? P0 PM]; subst. cbn in HE.
      pose proof (Rsum_nonneg m PM). cbn. rewrite <- IH; [f_equal; lra|exact PM|lra]. }
    apply SZ in S0; [|exact P1]. rewrite <- (firstn_skipn n l). rewrite app_length, repeat_app, <- S0, <- ES. reflexivity. }
  split.
  - rewrite (Z _ _ L ED (Rlosses_nonneg p)) at 1. f_equal. unfold Rlosses. rewrite map_length, diffs_length. lia.
  - rewrite (Z _ _ L EU (Rgains_nonneg p)) at 1. f_equal. unfold Rgains. rewrite map_length, diffs_length. lia.
Qed.
Example C22_ex : gives same_opt (run_new (rsi_new 2) rsi_step ctx6 (qs [1; 2; 3; 4]%Z)) [None; None; Some (q 100); Some (q 100)] = true.
Proof. vm_compute. reflexivity. Qed.
Example C22_ex2 : gives same_opt (run_new (rsi_new 2) rsi_step ctx6 (qs [1; 3; 2; 3]%Z)) [None; None; Some (fsub (q 100) (fdiv (q 100) (q 3))); Some (q 80)] = true.
Proof. vm_compute. reflexivity. Qed.

(** ** C23 *)
Section C23.
  Context {F : Type} {NF : Num F}.
  Local Open Scope num_scope.
  Definition h_of (x : option F * option F * option F) : option F := snd (fst x).
  Definition l_of (x : option F * option F * option F) : option F := snd x.
  (** Every bar, in terms of Highest over the highs and Lowest over the lows. *)
  Theorem C23_stoch len (c : ctx F) xs : (1 <= len)%nat ->
    exists os hs ls, run_new (stoch_new len) stoch_step c xs = Ok os /\
      run_new (highest_new len) highest_step c (map h_of xs) = Ok hs /\
      run_new (lowest_new len) lowest_step c (map l_of xs) = Ok ls /\ length os = length xs /\
    forall i x, nth_error xs i = Some x ->
      nth_error os i = Some
        match fst (fst x), join (nth_error hs i), join (nth_error ls i) with
        | Some v, Some mx, Some mn =>
            if mx - mn ==? fZ 0 then before None os i else Some (fZ 100 * (v - mn) / (mx - mn))
        | _, _, _ => None
        end.
  Proof.
    intros L. rewrite (makes_run _ _ _ _ c xs (stoch_makes len L) I),
      (makes_run _ _ _ _ c (map h_of xs) (highest_makes len L) I), (makes_run _ _ _ _ c (map l_of xs) (lowest_makes len L) I).
    do 3 eexists. do 3 (split; [reflexivity|]). split; [apply length_each_prefix|]. intros i x Hx.
    assert (Hi : (i < length xs)%nat) by (apply nth_error_Some; congruence).
    rewrite !nth_error_each_prefix by (rewrite ?map_length; exact Hi). cbn [join].
    rewrite !firstn_map, (firstn_S_nth xs i x Hx). destruct x as [[v hi] lo]. rewrite stoch_out_snoc.
    unfold highest_out, lowest_out. rewrite !map_length, !app_length, firstn_length_le by lia. cbn [length].
    replace (c_index c + i + 1)%nat with (c_index c + (i + 1))%nat by lia. cbn [fst snd]. rewrite !map_app. cbn [map].
    destruct (len <=? c_index c + (i + 1))%nat; [|destruct v; reflexivity].
    unfold h_of, l_of. cbn [fst snd]. f_equal. destruct v as [v|]; [|reflexivity].
    destruct (best (fun v m => m <? v) _) as [mx|]; [|reflexivity]. destruct (best (fun v m => v <? m) _) as [mn|]; [|reflexivity].
    destruct (mx - mn ==? fZ 0); [|reflexivity]. unfold before. destruct i as [|i].
    - cbn [firstn]. reflexivity.
    - rewrite nth_error_each_prefix by lia. reflexivity.
  Qed.
End C23.
(** In exact arithmetic, when every value lies between its low and high. *)
Definition stoch_ok (x : option R * option R * option R) : Prop :=
  match x with (Some v, Some h, Some l) => (l <= v <= h)%R | _ => False end.
Definition lift3 (x : option R * option R * option R) : option xr * option xr * option xr :=
  (option_map Fin (fst (fst x)), option_map Fin (snd (fst x)), option_map Fin (snd x)).
Theorem C23_stoch_range len c xs os i v : 1 <= len -> c_index c = 0 -> Forall stoch_ok xs ->
  run_new (stoch_new len) stoch_step c (map lift3 xs) = Ok os -> nth_error os i = Some (Some v) ->
  exists r, v = Fin r /\ (0 <= r <= 100)%R.
Proof.
  intros L Z H E Hv. destruct (@C23_stoch xr Exact len c (map lift3 xs) L) as (os' & hs & ls & E' & EH & EL & LO & P).
  rewrite E in E'. injection E' as <-.
  assert (HH : map h_of (map lift3 xs) = lift (map (fun x => snd (fst x)) xs)) by (unfold lift; rewrite !map_map; reflexivity).
  assert (LL : map l_of (map lift3 xs) = lift (map snd xs)) by (unfold lift; rewrite !map_map; reflexivity).
  rewrite HH, (makes_run _ _ _ _ c _ (highest_makes (F:=xr) len L) I), Z in EH. injection EH as <-.
  rewrite LL, (makes_run _ _ _ _ c _ (lowest_makes (F:=xr) len L) I), Z in EL. injection EL as <-.
  revert v Hv. induction i as [i IH] using lt_wf_ind; intros v Hv.
  assert (Hi : i < length xs) by (rewrite <- (map_length lift3), <- LO; apply nth_error_Some; congruence).
  destruct (nth_error xs i) as [x|] eqn:Hx; [|apply nth_error_None in Hx; lia].
  pose proof (P i (lift3 x) (map_nth_error _ _ _ Hx)) as Q. rewrite Hv in Q.
  assert (OX : stoch_ok x) by (rewrite Forall_forall in H; apply H; eapply nth_error_In; exact Hx).
  destruct x as [[[y|] [hi|]] [lo|]]; try contradiction. cbn [lift3 fst snd option_map] in Q.
  rewrite !nth_error_each_prefix in Q by (rewrite lift_length, map_length; exact Hi). cbn [join] in Q.
  unfold highest_out, lowest_out in Q. rewrite !lift_firstn, !lift_length, !firstn_length, !map_length, !lift_lastn, !lift_present, fin_best_max, fin_best_min in Q.
  cbn [Nat.add] in Q. destruct (len <=? Nat.min (S i) (length xs)); [|discriminate].
  destruct (Rmaximum _) as [mx|] eqn:EMx; [|discriminate]. destruct (Rminimum _) as [mn|] eqn:EMn; [|discriminate].
  cbn [option_map] in Q. rewrite fin_sub, fin_Z, fin_eq in Q.
  destruct (Reqb_spec (mx - mn) 0) as [Eq|Ne].
  - destruct i as [|i]; [discriminate|]. cbn [before] in Q. injection Q as Q. apply (IH i); [lia|].
    destruct (nth_error os i) as [o|] eqn:EO; [|discriminate]. cbn in Q. congruence.
  - rewrite fin_sub, !fin_Z, fin_mul, fin_div in Q by exact Ne. injection Q as ->. eexists; split; [reflexivity|].
    apply Rmaximum_spec in EMx. apply Rminimum_spec in EMn. destruct EMx as [_ MX], EMn as [_ MN].
    rewrite Forall_forall in MX, MN.
    assert (IW : forall (k : option R * option R * option R -> option R) w, k (Some y, Some hi, Some lo) = Some w ->
              In w (present (lastn len (firstn (S i) (map k xs))))).
    { intros k w K. rewrite (firstn_S_nth (map k xs) i (Some w)).
      - destruct len; [lia|]. rewrite lastn_S_snoc, present_app'. apply in_or_app; right; left; reflexivity.
      - rewrite (map_nth_error _ _ _ Hx), K. reflexivity. }
    specialize (MX hi (IW (fun x => snd (fst x)) hi eq_refl)). specialize (MN lo (IW snd lo eq_refl)).
    cbn in OX. assert (D : (0 < mx - mn)%R) by lra.
    split; [apply Rmult_le_pos; [lra|left; apply Rinv_0_lt_compat; lra]|].
    apply Rmult_le_reg_r with (mx - mn)%R; [exact D|]. unfold Rdiv. rewrite Rmult_assoc, Rinv_l by lra. nra.
Qed.
Example C23_ok_ex : Forall stoch_ok [(Some 1, Some 2, Some 0); (Some 3, Some 3, Some 1)]%R.
Proof. repeat constructor; cbn; lra. Qed.
Example C23_ex : gives same_opt (run_new (stoch_new 2) stoch_step ctx6
    [(Some (q 1), Some (q 2), Some (q 0)); (Some (q 3), Some (q 4), Some (q 1)); (Some (q 2), Some (q 2), Some (q 2)); (Some (q 2), Some (q 2), Some (q 2))])
  [None; Some (q 75); Some (fdiv (q 100) (q 3)); Some (fdiv (q 100) (q 3))] = true.
Proof. vm_compute. reflexivity. Qed.

(** ** C24 *)
Section C24.
  Context {F : Type} {NF : Num F}.
  Local Open Scope num_scope.
  (** Tr at a bar with high [h] and low [l], given the previous bar if any. *)
  Definition tr_spec (na : bool) (prev : option (bar F)) (h l : F) : option F :=
    match prev with
    | Some (mkBar _ (Some _) (Some _) (Some pc) _) =>
        Some (fmax (fmax (h - l) (fabs (h - pc))) (fabs (l - pc)))
    | _ => if na then Some (h - l) else None
    end.
  Theorem C24_tr na (c : ctx F) bs : fresh_over c bs -> Forall has_hl bs ->
    exists os, run tr_step c na (ticks (length bs)) = Ok os /\ length os = length bs /\
    forall i b h l, nth_error bs i = Some b -> b_high b = Some h -> b_low b = Some l ->
      nth_error os i = Some (tr_spec na (match i with 0 => None | S j => nth_error bs j end) h l).
  Proof.
    intros HF HB. rewrite tr_run by assumption. eexists; split; [reflexivity|]. split; [apply length_each_prefix|].
    intros i b h l Hb Hh Hl. assert (Hi : (i < length bs)%nat) by (apply nth_error_Some; congruence).
    rewrite nth_error_each_prefix by exact Hi. rewrite (firstn_S_nth bs i b Hb). unfold tr_out.
    rewrite !cur_snoc, !prv_snoc, Hh, Hl. f_equal. destruct i as [|i]; [reflexivity|].
    destruct (nth_error bs i) as [p|] eqn:Hp; [|apply nth_error_None in Hp; lia].
    rewrite (firstn_S_nth bs i p Hp). unfold cur. rewrite newest_snoc. cbn [obind]. unfold true_range, tr_spec.
    destruct p as [o [ph|] [pl|] [pc|] v]; reflexivity.
  Qed.
  (** A missing high or low panics. *)
  Theorem C24_tr_missing_panics na (c : ctx F) h b t : fresh_over c (h ++ b :: t) -> ~ has_hl b ->
    tr_step (ctx_at c (length h)) na tt = Panic.
  Proof.
    intros HF HB. unfold tr_step. rewrite (read_high _ _ _ _ HF), (read_low _ _ _ _ HF). cbn [rbind].
    destruct (b_high b) as [x|] eqn:E1; [|reflexivity]. destruct (b_low b) as [y|] eqn:E2; [|reflexivity].
    exfalso. apply HB. split; congruence.
  Qed.
  (** Atr is the Rma of Tr (with the first bar's range counted). *)
  Theorem C24_atr len (c : ctx F) bs : (1 <= len)%nat -> fresh_over c bs -> Forall has_hl bs ->
    exists trs os, run tr_step c true (ticks (length bs)) = Ok trs /\
      run_new (rma_new len) rma_step c trs = Ok os /\
      run_new (atr_new len) atr_step c (ticks (length bs)) = Ok os.
  Proof.
    intros L HF HB. exists (each_prefix (tr_out true) bs), (each_prefix (atr_out len) bs).
    split; [apply tr_run; assumption|]. split.
    - rewrite (makes_run _ _ _ _ c _ (rma_makes len L) (tr_out_warmed_true bs HB)), each_prefix_each_prefix. reflexivity.
    - destruct (atr_run len c bs L HF HB) as (s & E & R). unfold run_new. rewrite E. exact R.
  Qed.
  Theorem C24_atr_length_one (c : ctx F) bs : fresh_over c bs -> Forall has_hl bs ->
    run_new (atr_new 1) atr_step c (ticks (length bs)) = run tr_step c true (ticks (length bs)).
  Proof.
    intros HF HB. destruct (C24_atr 1 c bs (le_n 1) HF HB) as (trs & os & E1 & E2 & E3). rewrite E1, E3.
    rewrite <- E2, rma_run by lia. reflexivity.
  Qed.
End C24.
Section C24o.
  Context {F : Type} {NF : Num F} {OF : OrdNum F}.
  Local Open Scope num_scope.
  (** At least the bar's own range. *)
  Theorem C24_tr_ge_range na prev (h l v : F) : tr_spec na prev h l = Some v -> fisnan (h - l) = false ->
    ((h - l) <=? v) = true.
  Proof.
    unfold tr_spec. intros E N. destruct prev as [[o [?|] [?|] [pc|] ?]|]; [injection E as <-|..]; [|destruct na; try discriminate; injection E as <-; apply le_refl; exact N..].
    eapply le_trans; [apply fmax_ge_l; exact N|]. apply fmax_ge_l. apply fmax_nonnan; auto.
  Qed.
End C24o.
Section C24i.
  Variable log10 : f64 -> f64.
  #[local] Instance N64 : Num f64 := IEEE log10.
  #[local] Instance O64 : OrdNum f64 := IEEEOrd log10.
  Lemma nz_ge0 (x : f64) : nz x -> is_nan x = true \/ Bleb (f64_ofZ 0) x = true.
  Proof. intros [[H|H]|H]; [left; exact H| |subst x; right; reflexivity]. destruct x as [[]|[]| |[]]; try discriminate; auto. Qed.
  Lemma abs_nz (x : f64) : nz (Babs x).
  Proof. left. destruct x; [right|right|left|right]; reflexivity. Qed.
  Lemma le_sub_nz (l h : f64) : Bleb l h = true -> nz (Bminus mode_NE h l).
  Proof.
    intros H. destruct (is_finite h) eqn:FH, (is_finite l) eqn:FL.
    - assert (LE : (B2R l <= B2R h)%R) by (rewrite Bleb_correct in H by assumption; destruct (Rle_bool_spec (B2R l) (B2R h)); [assumption|discriminate]).
      pose proof (Bminus_correct 53 1024 _ _ mode_NE h l FH FL) as C.
      pose proof (Rlt_bool_spec (Rabs (round radix2 (SpecFloat.fexp 53 1024) (round_mode mode_NE) (B2R h - B2R l))) (bpow radix2 1024)) as LB.
      destruct (Rlt_bool _ _) in *.
      + destruct C as (C1 & C2 & C3).
        assert (P : (0 <= B2R (Bminus mode_NE h l))%R).
        { rewrite C1. rewrite <- (round_0 radix2 (SpecFloat.fexp 53 1024) (round_mode mode_NE)). apply round_le; [apply fexp_correct; reflexivity|apply valid_rnd_round_mode|lra]. }
        revert C2 P. generalize (Bminus mode_NE h l). intros [[]|s| |[] m e He] C2 P; try discriminate; [right; reflexivity|left; right; reflexivity| |left; right; reflexivity].
        exfalso. revert P. cbn. pose proof (F2R_lt_0 radix2 {| Fnum := Z.neg m; Fexp := e |} ltac:(cbn; lia)). lra.
      + destruct C as [C S]. cbn in C. apply sf_inf in C. rewrite C. left; right. cbn.
        destruct (Bsign h) eqn:SH; [|reflexivity]. exfalso. inversion LB as [|LB' LB0].
        assert (HH : (B2R h <= 0)%R) by (destruct h as [[]|[]| |[] mh eh Hh]; try discriminate; cbn; [lra|];
          pose proof (F2R_lt_0 radix2 {| Fnum := Z.neg mh; Fexp := eh |} ltac:(cbn; lia)); lra).
        assert (HL : (0 <= B2R l)%R) by (destruct l as [[]|[]| |[] ml el Hl]; try discriminate; cbn; [lra|];
          pose proof (F2R_gt_0 radix2 {| Fnum := Z.pos ml; Fexp := el |} ltac:(cbn; lia)); lra).
        replace (B2R h - B2R l)%R with 0%R in LB' by lra. rewrite round_0 in LB'; [|apply valid_rnd_round_mode].
        rewrite Rabs_R0 in LB'. pose proof (bpow_gt_0 radix2 1024). lra.
    - destruct h as [[]|[]| |[]], l as [[]|[]| |[]]; try discriminate; cbn; (left; right; reflexivity) || (left; left; reflexivity).
    - destruct h as [[]|[]| |[]], l as [[]|[]| |[]]; try discriminate; cbn; (left; right; reflexivity) || (left; left; reflexivity).
    - destruct h as [[]|[]| |[]], l as [[]|[]| |[]]; try discriminate; cbn; (left; right; reflexivity) || (left; left; reflexivity).
  Qed.
  Lemma fmax_nz (a b : f64) : nz a -> nz b -> nz (fmax a b).
  Proof. intros A B. destruct (fmax_cases a b) as [->| ->]; assumption. Qed.
  (** In f64: a bar whose low does not exceed its high never has a negative true range. *)
  Theorem C24_tr_nonneg na prev (h l v : f64) : Bleb l h = true -> tr_spec na prev h l = Some v ->
    is_nan v = true \/ Bleb (f64_ofZ 0) v = true.
  Proof.
    intros H E. apply nz_ge0. pose proof (le_sub_nz l h H) as D. unfold tr_spec in E.
    destruct prev as [[o [?|] [?|] [pc|] ?]|]; [injection E as <-|..]; [|destruct na; try discriminate; injection E as <-; exact D..].
    apply fmax_nz; [apply fmax_nz; [exact D|apply abs_nz]|apply abs_nz].
  Qed.
End C24i.
(** In exact arithmetic on real data. *)
Theorem C24_tr_exact (o v : option xr) ph pl pc h l na :
  tr_spec na (Some (mkBar o (Some (Fin ph)) (Some (Fin pl)) (Some (Fin pc)) v)) (Fin h) (Fin l) =
  Some (Fin (Rmax (Rmax (h - l) (Rabs (h - pc))) (Rabs (l - pc)))).
Proof. unfold tr_spec. rewrite !fin_sub, !fin_abs, !fin_max. reflexivity. Qed.
Example C24_ex : Forall has_hl bars6 /\
  gives same_opt (run tr_step ctx6 true (ticks 6)) [Some (q 3); Some (q 4); Some (q 3); Some (q 5); Some (q 4); Some (q 6)] = true /\
  gives same_opt (run_new (atr_new 2) atr_step ctx6 (ticks 3)) [None; Some (lit 7 2); Some (lit 13 4)] = true.
Proof. split; [repeat (constructor; [split; discriminate|]); constructor|split; vm_compute; reflexivity]. Qed.

(** ** C25 *)
Section C25.
  Context {F : Type} {NF : Num F}.
  Local Open Scope num_scope.
  (** At bar [i] the two lines have these values / at the bar before it. *)
  Definition lines (xs : list (option F * option F)) (i : nat) (a b : F) : Prop := nth_error xs i = Some (Some a, Some b).
  Definition went_over xs i : Prop :=
    exists j a b pa pb, i = S j /\ lines xs i a b /\ lines xs j pa pb /\ (b <? a) = true /\ (pa <=? pb) = true.
  Definition went_under xs i : Prop :=
    exists j a b pa pb, i = S j /\ lines xs i a b /\ lines xs j pa pb /\ (a <? b) = true /\ (pb <=? pa) = true.

  Lemma cross_at_iff xs i P : (i < length xs)%nat ->
    (cross_at (firstn (S i) xs) P = true <->
     exists j a b pa pb, i = S j /\ lines xs i a b /\ lines xs j pa pb /\ P a b pa pb = true).
  Proof.
    intros Hi. destruct (nth_error xs i) as [x|] eqn:Hx; [|apply nth_error_None in Hx; lia].
    unfold cross_at. rewrite (newest_firstn xs i x Hx), (firstn_S_nth xs i x Hx), ago_S_snoc.
    destruct i as [|i].
    - cbn [firstn ago length]. split; [discriminate|]. intros (j & a & b & pa & pb & ? & _). discriminate.
    - destruct (nth_error xs i) as [y|] eqn:Hy; [|apply nth_error_None in Hy; lia].
      rewrite (firstn_S_nth xs i y Hy), ago_0_snoc. unfold lines. rewrite Hx. split.
      + destruct y as [[pa|] [pb|]], x as [[a|] [b|]]; try discriminate. intros E. exists i, a, b, pa, pb. auto.
      + intros (j & a & b & pa & pb & Ej & E1 & E2 & E3). injection Ej as <-. rewrite Hy in E2. injection E1 as ->. injection E2 as ->. exact E3.
  Qed.
  Theorem C25_crossover (c : ctx F) xs : exists os, run crossover_step c cross_new xs = Ok os /\ length os = length xs /\
    forall i o, nth_error os i = Some o -> (o = true <-> went_over xs i).
  Proof.
    pose proof (makes_run _ _ _ _ c xs (crossover_makes (F:=F)) I) as E. cbn [run_new rbind] in E. rewrite E.
    eexists; split; [reflexivity|]. split; [apply length_each_prefix|]. intros i o Ho. apply nth_each in Ho. destruct Ho as [Hi ->].
    rewrite cross_at_iff by exact Hi. unfold went_over, cross_over, fgtb.
    split; intros (j & a & b & pa & pb & A & B & C & D); exists j, a, b, pa, pb; [apply andb_true_iff in D|rewrite andb_true_iff]; tauto.
  Qed.
  Theorem C25_crossunder (c : ctx F) xs : exists os, run crossunder_step c cross_new xs = Ok os /\ length os = length xs /\
    forall i o, nth_error os i = Some o -> (o = true <-> went_under xs i).
  Proof.
    pose proof (makes_run _ _ _ _ c xs (crossunder_makes (F:=F)) I) as E. cbn [run_new rbind] in E. rewrite E.
    eexists; split; [reflexivity|]. split; [apply length_each_prefix|]. intros i o Ho. apply nth_each in Ho. destruct Ho as [Hi ->].
    rewrite cross_at_iff by exact Hi. unfold went_under, cross_under, fgeb.
    split; intros (j & a & b & pa & pb & A & B & C & D); exists j, a, b, pa, pb; [apply andb_true_iff in D|rewrite andb_true_iff]; tauto.
  Qed.
  (** The threshold versions are the two-line versions against a constant line. *)
  Theorem C25_thresholds (c : ctx F) t xs :
    run crossover_t_step c (crosst_new t) xs = run crossover_step c cross_new (map (fun v => (v, Some t)) xs) /\
    run crossunder_t_step c (crosst_new t) xs = run crossunder_step c cross_new (map (fun v => (v, Some t)) xs) /\
    run cross_t_step c (crosst_new t) xs = run cross_step c cross_new (map (fun v => (v, Some t)) xs).
  Proof.
    pose proof (makes_run _ _ _ _ c xs (crossover_t_makes t) I) as E1.
    pose proof (makes_run _ _ _ _ c xs (crossunder_t_makes t) I) as E2.
    pose proof (makes_run _ _ _ _ c xs (cross_t_makes t) I) as E3.
    pose proof (makes_run _ _ _ _ c (with_line t xs) (crossover_makes (F:=F)) I) as G1.
    pose proof (makes_run _ _ _ _ c (with_line t xs) (crossunder_makes (F:=F)) I) as G2.
    pose proof (makes_run _ _ _ _ c (with_line t xs) (cross_makes (F:=F)) I) as G3.
    cbn [run_new rbind] in *. fold (with_line t xs). rewrite E1, E2, E3, G1, G2, G3.
    assert (M : forall (B : Type) (f : list (option F * option F) -> B),
      each_prefix f (with_line t xs) = each_prefix (fun h => f (with_line t h)) xs) by (intros; apply each_prefix_of_map).
    rewrite !M. auto.
  Qed.
End C25.
Section C25o.
  Context {F : Type} {NF : Num F} {OF : OrdNum F}.
  Local Open Scope num_scope.
  Lemma over_not_under (xs : list (option F * option F)) i : went_over xs i -> ~ went_under xs i.
  Proof.
    intros (j & a & b & pa & pb & -> & A & _ & B & _) (j' & a' & b' & pa' & pb' & _ & A' & _ & B' & _).
    unfold lines in *. rewrite A in A'. injection A' as <- <-. rewrite (lt_asym _ _ B) in B'. discriminate.
  Qed.
  (** Cross reports Over / Under at exactly those bars, and never both. *)
  Theorem C25_cross (c : ctx F) xs : exists os, run cross_step c cross_new xs = Ok os /\ length os = length xs /\
    forall i o, nth_error os i = Some o -> (o = Some Over <-> went_over xs i) /\ (o = Some Under <-> went_under xs i).
  Proof.
    pose proof (makes_run _ _ _ _ c xs (cross_makes (F:=F)) I) as E. cbn [run_new rbind] in E. rewrite E.
    eexists; split; [reflexivity|]. split; [apply length_each_prefix|]. intros i o Ho. apply nth_each in Ho. destruct Ho as [Hi ->].
    assert (A : cross_at (firstn (S i) xs) cross_over = true <-> went_over xs i).
    { rewrite cross_at_iff by exact Hi. unfold went_over, cross_over, fgtb.
      split; intros (j & a & b & pa & pb & A & B & C & D); exists j, a, b, pa, pb; [apply andb_true_iff in D|rewrite andb_true_iff]; tauto. }
    assert (B : cross_at (firstn (S i) xs) cross_under = true <-> went_under xs i).
    { rewrite cross_at_iff by exact Hi. unfold went_under, cross_under, fgeb.
      split; intros (j & a & b & pa & pb & A' & B & C & D); exists j, a, b, pa, pb; [apply andb_true_iff in D|rewrite andb_true_iff]; tauto. }
    unfold cross_out. pose proof (over_not_under xs i) as N.
    destruct (cross_at (firstn (S i) xs) cross_over), (cross_at (firstn (S i) xs) cross_under); intuition (try discriminate).
  Qed.
  (** Between two Over bars there is a bar where the first line is not above. *)
  Theorem C25_between_overs (xs : list (option F * option F)) i j : went_over xs i -> went_over xs j -> (i < j)%nat ->
    exists k a b, (i < k < j)%nat /\ lines xs k a b /\ (a <=? b) = true.
  Proof.
    intros (i' & a & b & pa & pb & -> & A & _ & B & _) (k & a2 & b2 & pa2 & pb2 & -> & A2 & C2 & B2 & D2) H.
    exists k, pa2, pb2. split; [|auto]. assert (k <> S i'); [|lia]. intros ->. unfold lines in *. rewrite A in C2. injection C2 as <- <-.
    apply le_not_lt in D2. congruence.
  Qed.
End C25o.
Example C25_ex : run cross_step ctx6 cross_new
   (combine (qs [1; 3; 2; 2; 5]%Z) (qs [2; 2; 2; 3; 4]%Z)) = Ok [None; Some Over; None; Some Under; Some Over].
Proof. vm_compute. reflexivity. Qed.
