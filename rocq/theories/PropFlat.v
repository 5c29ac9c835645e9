(** * PropFlat: C118 (flat markets). *)
From Coq Require Import Reals Lra Lia.
From Flocq Require Import Core IEEE754.BinarySingleNaN.
From Verif Require Import Inst PropTrend PropWin PExact3 PTa4 PIeee PRound PMono PropTa1 PropTa2 PropTa3 PropContent1 PropContent2 PropContent3 PropContent4 PropContent5.

(** ** A steady indicator is silent *)
Section Quiet.
  Context {F : Type} {NF : Num F} {OF : OrdNum F}.
  Local Open Scope num_scope.
  (** Whenever there is a value it is the same value. *)
  Definition steady {A} (os : list (option A)) : Prop := exists v, Forall (fun o => o = None \/ o = Some v) os.
  Definition silent (os : list (option direction)) : Prop := Forall (fun o => o = None) os.
  Lemma steady_at {A} (os : list (option A)) : steady os -> exists v, forall i w, nth_error os i = Some (Some w) -> w = v.
  Proof.
    intros [v H]. exists v. intros i w N. rewrite Forall_forall in H. destruct (H _ (nth_error_In _ _ N)) as [E|E]; congruence.
  Qed.
  Lemma steady_intro {A} (os : list (option A)) v : (forall i o, nth_error os i = Some o -> o = None \/ o = Some v) -> steady os.
  Proof. intros H. exists v. apply Forall_forall. intros o I. apply In_nth_error in I. destruct I as [i N]. exact (H i o N). Qed.
  Lemma silent_intro os : (forall i o, nth_error os i = Some o -> o <> Some Long /\ o <> Some Short) -> silent os.
  Proof.
    intros H. apply Forall_forall. intros o I. apply In_nth_error in I. destruct I as [i N]. destruct (H i o N). destruct o as [[|]|]; congruence.
  Qed.
  (** Any thresholds. *)
  Theorem C118_thresholds (c : ctx F) lo hi vs : steady vs ->
    exists os, run thr_step c (osc_strategy_new lo hi) vs = Ok os /\ length os = length vs /\ silent os.
  Proof.
    intros K. destruct (C49_oscillator_strategies c lo hi vs) as (os & E & L & T). exists os. split; [exact E|]. split; [exact L|].
    destruct (steady_at _ K) as [v HV]. apply silent_intro. intros i o N. destruct (T i o N) as [T1 T2].
    assert (A : ~ crosses_above lo vs i).
    { intros (j & a & p & -> & NA & NP & Q1 & Q2). rewrite (HV _ _ NA) in Q1. rewrite (HV _ _ NP) in Q2. apply le_not_lt in Q2. congruence. }
    assert (B : ~ crosses_below hi vs i).
    { intros (j & a & p & -> & NA & NP & Q1 & Q2). rewrite (HV _ _ NA) in Q1. rewrite (HV _ _ NP) in Q2. apply le_not_lt in Q2. congruence. }
    tauto.
  Qed.
  (** Two lines, each steady. *)
  Lemma no_cross (xs : list (option F * option F)) i : steady (map fst xs) -> steady (map snd xs) -> ~ went_over xs i /\ ~ went_under xs i.
  Proof.
    intros K1 K2. destruct (steady_at _ K1) as [v1 H1]. destruct (steady_at _ K2) as [v2 H2].
    assert (P : forall k a b, lines xs k a b -> a = v1 /\ b = v2).
    { intros k a b N. unfold lines in N. split; [apply (H1 k)|apply (H2 k)]; rewrite nth_error_map, N; reflexivity. }
    split; intros (j & a & b & pa & pb & -> & NA & NP & Q1 & Q2); apply P in NA, NP; destruct NA as [-> ->], NP as [-> ->]; apply le_not_lt in Q2; congruence.
  Qed.
  Theorem C118_lines (c : ctx F) xs : steady (map fst xs) -> steady (map snd xs) ->
    exists os, run cross_strategy_step c cross_new xs = Ok os /\ length os = length xs /\ silent os.
  Proof.
    intros K1 K2. destruct (C50_line_cross c xs) as (os & E & L & T). exists os. split; [exact E|]. split; [exact L|].
    apply silent_intro. intros i o N. destruct (T i o N) as [T1 T2]. destruct (no_cross xs i K1 K2). tauto.
  Qed.
  Theorem C118_dmi_lines (c : ctx F) t xs : steady (map fst (map fst xs)) -> steady (map snd (map fst xs)) ->
    exists os, run dmi_strategy_step c (dmi_strategy_new t) xs = Ok os /\ length os = length xs /\ silent os.
  Proof.
    intros K1 K2. destruct (C50_dmi_strategy c t xs) as (os & E & L & T). exists os. split; [exact E|]. split; [exact L|].
    apply silent_intro. intros i o N. destruct (T i o N) as [T1 T2]. destruct (no_cross _ i K1 K2). tauto.
  Qed.
  Theorem C118_stoch_rsi_lines (c : ctx F) lo hi xs : steady (map fst xs) ->
    exists os, run srsi_strategy_step c (osc_strategy_new lo hi) xs = Ok os /\ length os = length xs /\ silent os.
  Proof.
    intros K. destruct (C49_stoch_rsi_strategy c lo hi xs) as (os & E & T). destruct (C118_thresholds c lo hi _ K) as (os' & E' & L' & S').
    exists os. split; [exact E|]. destruct T as [L T]. rewrite map_length in L. split; [exact L|].
    destruct (steady_at _ K) as [v HV]. apply silent_intro. intros i o N. destruct (T i o N) as [T1 T2].
    assert (A : ~ crosses_above lo (map fst xs) i).
    { intros (j & a & p & -> & NA & NP & Q1 & Q2). rewrite (HV _ _ NA) in Q1. rewrite (HV _ _ NP) in Q2. apply le_not_lt in Q2. congruence. }
    assert (B : ~ crosses_below hi (map fst xs) i).
    { intros (j & a & p & -> & NA & NP & Q1 & Q2). rewrite (HV _ _ NA) in Q1. rewrite (HV _ _ NP) in Q2. apply le_not_lt in Q2. congruence. }
    tauto.
  Qed.
  (** Aroon: a signal needs a cross of the two lines before it. *)
  Theorem C118_aroon_lines (c : ctx F) xs : steady (map fst xs) -> steady (map snd xs) ->
    exists os, run aroons_step c aroons_new xs = Ok os /\ length os = length xs /\ silent os.
  Proof.
    intros K1 K2. exists (each_prefix aout xs). split; [apply aroons_run|]. split; [apply length_each_prefix|].
    apply Forall_forall. intros o Io. apply In_nth_error in Io. destruct Io as [i N].
    assert (L : (i < length xs)%nat) by (rewrite <- (length_each_prefix aout xs); apply nth_error_Some; congruence).
    rewrite nth_error_each_prefix in N by exact L. apply some_inj in N. subst o.
    destruct (nth_error xs i) as [x|] eqn:Nx; [|apply nth_error_None in Nx; lia].
    assert (NP : ~ pending xs (each_prefix aout xs) i).
    { intros (j & J & C & _). destruct (no_cross xs j K1 K2) as [A B]. destruct C; contradiction. }
    rewrite <- pending_sw, <- pending_iff in NP by exact L. apply not_true_is_false in NP.
    assert (E : rev (firstn (S i) xs) = x :: rev (firstn i xs)) by (rewrite (firstn_S_nth xs i x Nx), rev_app_distr; reflexivity).
    unfold aout. rewrite E, NP. reflexivity.
  Qed.
End Quiet.

(** ** Undefined values stay undefined *)
Section Undefined.
  Context {F : Type} {NF : Num F}.
  Local Open Scope num_scope.
  Definition absorbs (u : F) : Prop :=
    (forall x : F, u + x = u /\ x + u = u /\ u / x = u) /\ u - u = u /\ (u ==? fZ 0) = false /\ fZ 100 * u = u.
  Definition only {A} (u : A) (o : option A) : Prop := o = None \/ o = Some u.
  Lemma only_best cmp u (w : list (option F)) : Forall (only u) w -> only u (best cmp (present w)).
  Proof.
    intros H. assert (P : Forall (fun x => x = u) (present w)).
    { induction H as [|o w [-> | ->] _ IH]; [constructor|exact IH|constructor; [reflexivity|exact IH]]. }
    unfold best. destruct P as [|x t E P]; [left; reflexivity|]. right. f_equal. subst x. unfold beats.
    induction P as [|y t -> P IH]; [reflexivity|]. cbn [fold_left]. destruct (cmp u u); exact IH.
  Qed.
  Lemma only_app {A} (u : A) w o : Forall (only u) w -> only u o -> Forall (only u) (w ++ [o]).
  Proof. intros H1 H2. apply Forall_app. split; [exact H1|]. constructor; [exact H2|constructor]. Qed.
  Lemma only_lastn {A} (u : A) k w : Forall (only u) w -> Forall (only u) (lastn k w).
  Proof. intros H. apply Forall_forall. intros x I. apply lastn_In in I. rewrite Forall_forall in H. exact (H x I). Qed.
  Lemma only_stoch u len i0 (h : list (option F)) : absorbs u -> Forall (only u) h -> only u (stoch_out len i0 (map (fun r => (r, r, r)) h)).
  Proof.
    intros (A1 & A2 & A3 & A4). induction h as [|x h IH] using rev_ind; intros H; [left; reflexivity|].
    rewrite map_app. cbn [map]. rewrite stoch_out_snoc. destruct (len <=? _)%nat; [|left; reflexivity].
    rewrite !map_map. cbn [fst snd]. rewrite !map_id. apply Forall_app in H as [H1 H2]. pose proof (only_app u h x H1 (Forall_inv H2)) as H3.
    destruct (Forall_inv H2) as [-> | ->]; [left; reflexivity|].
    destruct (only_best (fun v m => m <? v) u _ (only_lastn u len _ H3)) as [-> | ->]; [left; reflexivity|].
    destruct (only_best (fun v m => v <? m) u _ (only_lastn u len _ H3)) as [-> | ->]; [left; reflexivity|].
    rewrite A2, A3. right. unfold stoch_val. rewrite A2, A4. f_equal. apply A1.
  Qed.
  Lemma only_sma u len (h : list (option F)) : (1 <= len)%nat -> absorbs u -> Forall (only u) h -> only u (sma_out len h).
  Proof.
    intros L (A1 & _) H. unfold sma_out. destruct h as [|x h _] using rev_ind.
    - destruct (len =? 1)%nat; [left; reflexivity|]. unfold window. cbn [length]. destruct len; [lia|left; reflexivity].
    - rewrite newest_snoc. cbn [join]. apply Forall_app in H as [_ H]. pose proof (Forall_inv H) as [-> | ->].
      + destruct (len =? 1)%nat; [left; reflexivity|]. left.
        assert (W : window len (h ++ [None]) = None); [|rewrite W; reflexivity].
        unfold window. destruct (len <=? _)%nat; [|reflexivity]. apply all_some_None. unfold lastn. rewrite app_length, skipn_app. cbn [length].
        apply in_or_app. right. replace (length h + 1 - len - length h)%nat with 0%nat by lia. left. reflexivity.
      + destruct (len =? 1)%nat; [right; reflexivity|]. unfold rsum. rewrite newest_snoc. cbn [join oadd].
        destruct (window len _); [right|left; reflexivity]. cbn [option_map]. f_equal. destruct (A1 (racc len (removelast (h ++ [Some u])))) as (_ & -> & _). apply A1.
  Qed.
  (** Connors Rsi and stochastic Rsi of a source whose Rsi is undefined. *)
  Lemma only_each u (f : list (option F) -> option F) xs : (forall i, only u (f (firstn (S i) xs))) -> forall i, Forall (only u) (each_prefix f (firstn (S i) xs)).
  Proof.
    intros H i. apply Forall_forall. intros o I. unfold each_prefix in I. apply in_map_iff in I. destruct I as (p & <- & I).
    apply in_prefixes in I. destruct I as (m & _ & ->). rewrite firstn_firstn, Nat.min_comm. destruct (Nat.min_spec (S i) (S m)) as [[_ ->]|[_ ->]]; apply H.
  Qed.
  Lemma crsi_only u l1 l2 l3 (c : ctx F) src xs : absorbs u -> (2 <= l1)%nat -> (2 <= l2)%nat -> (1 <= l3)%nat -> feeds c src xs -> warmed xs ->
    (forall i, only u (rsi_out l1 (firstn (S i) xs))) ->
    exists os, run_new (crsi_new src l1 l2 l3) crsi_step c (ticks (length xs)) = Ok os /\ length os = length xs /\ steady os.
  Proof.
    intros (A1 & _) L1 L2 L3 FE W K. rewrite (crsi_run l1 l2 l3 c src xs L1 L2 L3 FE W). eexists. split; [reflexivity|]. split; [apply length_each_prefix|].
    apply (steady_intro _ u). intros i o N. apply nth_each in N. destruct N as [_ ->]. unfold crsi_out, crsi_value.
    destruct (K i) as [-> | ->]; [left; reflexivity|]. destruct (rsi_out l2 _) as [b|]; [|left; reflexivity]. destruct (prank_out l3 _ _) as [d|]; [|left; reflexivity].
    right. f_equal. destruct (A1 b) as [-> _]. destruct (A1 d) as [-> _]. apply A1.
  Qed.
  Lemma srsi_only u l1 l2 k d (c : ctx F) src xs : absorbs u -> (2 <= l1)%nat -> (1 <= l2)%nat -> (1 <= k)%nat -> (1 <= d)%nat -> feeds c src xs -> warmed xs ->
    (forall i, only u (rsi_out l1 (firstn (S i) xs))) ->
    exists os, run_new (srsi_new src l1 l2 k d) srsi_step c (ticks (length xs)) = Ok os /\ length os = length xs /\ steady (map fst os) /\ steady (map snd os).
  Proof.
    intros A L1 L2 L3 L4 FE W K. rewrite (srsi_run l1 l2 k d c src xs L1 L2 L3 L4 FE W). eexists. split; [reflexivity|]. split; [apply length_each_prefix|].
    assert (KS : forall i, only u (srsi_k l1 l2 k (c_index c) (firstn (S i) xs))).
    { intros i. apply only_sma; [exact L3|exact A|]. apply only_each. intros j. unfold srsi_stoch.
      replace (each_prefix (fun p => (rsi_out l1 p, rsi_out l1 p, rsi_out l1 p)) (firstn (S j) xs)) with (map (fun r => (r, r, r)) (each_prefix (rsi_out l1) (firstn (S j) xs))) by apply each_prefix_map.
      apply only_stoch; [exact A|]. apply only_each. exact K. }
    split; apply (steady_intro _ u); intros i o N; rewrite nth_error_map in N; destruct (nth_error (each_prefix _ xs) i) as [[x y]|] eqn:N'; [|discriminate| |discriminate]; cbn in N; injection N as <-;
      apply nth_each in N'; destruct N' as [_ E]; unfold srsi_out in E; injection E as -> ->.
    - apply KS.
    - apply only_sma; [exact L4|exact A|]. apply only_each. exact KS.
  Qed.
  Lemma rsii_only u l1 (c : ctx F) src xs : (2 <= l1)%nat -> feeds c src xs -> warmed xs ->
    (forall i, only u (rsi_out l1 (firstn (S i) xs))) ->
    exists os, run_new (rsii_new src l1) rsii_step c (ticks (length xs)) = Ok os /\ length os = length xs /\ steady os.
  Proof.
    intros L1 FE W K. rewrite (rsii_run l1 c src xs L1 FE W). eexists. split; [reflexivity|]. split; [apply length_each_prefix|].
    apply (steady_intro _ u). intros i o N. apply nth_each in N. destruct N as [_ ->]. apply K.
  Qed.
End Undefined.

(** ** Constant series *)
Lemma firstn_same {A} (v : A) i n : (i < n)%nat -> firstn (S i) (repeat v n) = repeat v (S i).
Proof.
  intros H. replace n with (S i + (n - S i))%nat by lia. rewrite repeat_app, firstn_app, repeat_length, Nat.sub_diag, firstn_O, app_nil_r. apply firstn_all2. rewrite repeat_length. lia.
Qed.
Lemma firstn_same' {A} (v : A) i n : firstn i (repeat v n) = repeat v (Nat.min i n).
Proof. revert n. induction i as [|i IH]; intros n; [reflexivity|]. destruct n as [|n]; [reflexivity|]. cbn. f_equal. apply IH. Qed.
Lemma skipn_same {A} (v : A) i n : skipn i (repeat v n) = repeat v (n - i).
Proof. revert n. induction i as [|i IH]; intros n; [rewrite Nat.sub_0_r; reflexivity|]. destruct n as [|n]; [reflexivity|]. cbn. apply IH. Qed.
Lemma lastn_same {A} (v : A) len n : lastn len (repeat v n) = repeat v (Nat.min len n).
Proof. unfold lastn. rewrite repeat_length, skipn_same. f_equal. lia. Qed.
Lemma window_same {A} (v : A) len n : full_window len (repeat v n) = if (len <=? n)%nat then Some (repeat v len) else None.
Proof. unfold full_window. rewrite repeat_length, lastn_same. destruct (Nat.leb_spec len n); [|reflexivity]. do 2 f_equal. lia. Qed.
Lemma window_only {A} (u : A) k (w : list (option A)) : Forall (only u) w -> window k w = None \/ window k w = Some (repeat u k).
Proof.
  intros H. unfold window. destruct (Nat.leb_spec k (length w)) as [Q|Q]; [|left; reflexivity].
  pose proof (only_lastn u k w H) as HL. assert (LL : length (lastn k w) = k) by (rewrite length_lastn; lia). rewrite <- LL at 3.
  revert HL. generalize (lastn k w). clear. intros l HL. induction HL as [|o l [-> | ->] _ IH]; [right; reflexivity|left; reflexivity|].
  cbn [all_some length repeat]. destruct IH as [-> | ->]; [left|right]; reflexivity.
Qed.
Lemma pairs_same {A} (v : A) n : pairs (repeat v (S n)) = repeat (v, v) n.
Proof. induction n as [|n IH]; [reflexivity|]. change (repeat v (S (S n))) with (v :: v :: repeat v n). cbn [pairs repeat]. f_equal. exact IH. Qed.
Lemma map_same {A B} (f : A -> B) v n : map f (repeat v n) = repeat (f v) n.
Proof. induction n as [|n IH]; [reflexivity|]. cbn. f_equal. exact IH. Qed.
Lemma Rsum_same v n : Rsum (repeat v n) = (INR n * v)%R.
Proof. induction n as [|n IH]; [cbn; ring|]. change (repeat v (S n)) with (v :: repeat v n). cbn [Rsum]. rewrite IH, S_INR. ring. Qed.
Lemma Rmean_same v n : (1 <= n)%nat -> Rmean (repeat v n) = v.
Proof. intros L. unfold Rmean. rewrite Rsum_same, repeat_length. pose proof (PExact.INR_pos n L). field. lra. Qed.
Lemma smooth_same a len v n : (1 <= len)%nat -> Rsmooth a len (repeat v n) = if (n <? len)%nat then None else Some v.
Proof.
  intros L. unfold Rsmooth. rewrite repeat_length. destruct (Nat.ltb_spec n len) as [Q|Q]; [reflexivity|]. f_equal.
  rewrite skipn_same. replace (firstn len (repeat v n)) with (repeat v len).
  2:{ destruct len as [|k]; [lia|]. rewrite firstn_same by lia. reflexivity. }
  rewrite Rmean_same by exact L. induction (n - len)%nat as [|k IH]; [reflexivity|]. cbn [repeat fold_left].
  replace (a * v + (1 - a) * v)%R with v by ring. exact IH.
Qed.

Lemma same_nth {A} (l l' : list A) : (forall i, nth_error l i = nth_error l' i) -> l = l'.
Proof.
  revert l'. induction l as [|x l IH]; intros [|y l'] H; try reflexivity; try (discriminate (H 0%nat)).
  f_equal; [pose proof (H 0%nat) as E; cbn in E; congruence|]. apply IH. intros i. exact (H (S i)).
Qed.
Lemma combine_lines {A B} (l : list A) (m : list B) : length l = length m -> map fst (combine l m) = l /\ map snd (combine l m) = m.
Proof. revert m. induction l as [|x l IH]; intros [|y m] L; try discriminate; [auto|]. cbn. destruct (IH m) as [-> ->]; [cbn in L; lia|]. auto. Qed.
(** [k] missing values, then the same value, [n] in all. *)
Definition late {A} (k n : nat) (v : A) : list (option A) := repeat None (Nat.min k n) ++ repeat (Some v) (n - k).
Lemma late_warm {A} k n (v : A) : late k n v = warm (Nat.min k n) (repeat v (n - k)).
Proof. unfold late, warm. rewrite map_same. reflexivity. Qed.
Lemma late_length {A} k n (v : A) : length (late k n v) = n.
Proof. unfold late. rewrite app_length, !repeat_length. lia. Qed.
Lemma late_nth {A} k n (v : A) i : nth_error (late k n v) i = if (i <? n)%nat then Some (if (i <? k)%nat then None else Some v) else None.
Proof.
  unfold late. destruct (Nat.ltb_spec i n) as [Q|Q]; [|apply nth_error_None; rewrite app_length, !repeat_length; lia].
  destruct (Nat.ltb_spec i k) as [P|P].
  - rewrite nth_error_app1 by (rewrite repeat_length; lia). apply nth_error_repeat. lia.
  - rewrite nth_error_app2 by (rewrite repeat_length; lia). rewrite repeat_length. apply nth_error_repeat. lia.
Qed.
Lemma late_firstn {A} k n (v : A) i : (i < n)%nat -> firstn (S i) (late k n v) = late k (S i) v.
Proof.
  intros L. apply same_nth. intros j. rewrite late_nth. destruct (Nat.ltb_spec j (S i)) as [Q|Q].
  - rewrite nth_error_firstn_lt, late_nth by exact Q. destruct (Nat.ltb_spec j n); [reflexivity|lia].
  - apply nth_error_None. rewrite firstn_length, late_length. lia.
Qed.
Lemma late_each {A B} (f : list (option A) -> option B) k m n v w : (forall i, f (late k (S i) v) = if (i <? m)%nat then None else Some w) ->
  each_prefix f (late k n v) = late m n w.
Proof.
  intros H. apply same_nth. intros j. rewrite late_nth. destruct (Nat.ltb_spec j n) as [Q|Q].
  - rewrite nth_error_each_prefix by (rewrite late_length; exact Q). rewrite late_firstn by exact Q. rewrite H. reflexivity.
  - apply nth_error_None. rewrite length_each_prefix, late_length. exact Q.
Qed.
Lemma late_steady {A} k n (v : A) : steady (late k n v).
Proof. apply (steady_intro _ v). intros i o N. rewrite late_nth in N. destruct (i <? n)%nat; [|discriminate]. destruct (i <? k)%nat; injection N as <-; auto. Qed.
Lemma zip_late {A B C} (f : option A -> option B -> option C) k m n v w u :
  f None None = None -> (forall x, f (Some x) None = None) -> (forall y, f None (Some y) = None) -> f (Some v) (Some w) = Some u ->
  zip f (late k n v) (late m n w) = late (Nat.max k m) n u.
Proof.
  intros H1 H2 H3 H4. apply same_nth. intros j. rewrite late_nth. unfold zip. rewrite nth_error_map.
  destruct (Nat.ltb_spec j n) as [Q|Q].
  - rewrite (nth_error_combine _ _ j (if (j <? k)%nat then None else Some v) (if (j <? m)%nat then None else Some w)).
    2,3: rewrite late_nth; destruct (Nat.ltb_spec j n); [reflexivity|lia].
    cbn [option_map fst snd]. f_equal.
    destruct (Nat.ltb_spec j k), (Nat.ltb_spec j m), (Nat.ltb_spec j (Nat.max k m)); try lia; auto.
  - assert (E : nth_error (combine (late k n v) (late m n w)) j = None); [|rewrite E; reflexivity].
    apply nth_error_None. rewrite combine_length, !late_length. lia.
Qed.
Lemma late_full v n : full (repeat v n) = late 0 n (Fin v).
Proof. unfold full, late. rewrite map_same. replace (n - 0)%nat with n by lia. reflexivity. Qed.
Lemma ema_late len k n v (c : ctx xr) : (1 <= len)%nat -> run_new (ema_new len) ema_step c (late k n (Fin v)) = Ok (late (k + len - 1) n (Fin v)).
Proof.
  intros L. rewrite (makes_run _ _ _ _ c _ (ema_makes len L)) by (eexists _, _; apply late_warm). f_equal. apply late_each. intros i.
  unfold ema_out. rewrite late_warm, present_warm, <- (map_same Fin), ema_exact_std, smooth_same by exact L.
  destruct (Nat.ltb_spec (S i - k) len), (Nat.ltb_spec i (k + len - 1)); try lia; reflexivity.
Qed.
Lemma sma_late len k n v (c : ctx xr) : (1 <= len)%nat -> run_new (sma_new len) sma_step c (late k n (Fin v)) = Ok (late (k + len - 1) n (Fin v)).
Proof.
  intros L. rewrite (makes_run _ _ _ _ c _ (sma_makes len L)) by exact I. f_equal. apply late_each. intros i.
  rewrite late_warm, <- (map_same Fin), sma_warm, window_same by exact L.
  destruct (Nat.leb_spec len (S i - k)), (Nat.ltb_spec i (k + len - 1)); try lia; cbn [option_map]; [|reflexivity]. rewrite Rmean_same by exact L. reflexivity.
Qed.

(** ** Exact arithmetic *)
Section Flat.
  Local Open Scope R_scope.
  Variable r : rbar5.
  Variable n : nat.
  Variable c : ctx xr.
  Hypothesis H : fresh_over c (map bar_of (repeat r n)).
  Lemma pairs_of i : (i < n)%nat -> pairs (firstn (S i) (repeat r n)) = repeat (r, r) i.
  Proof. intros L. rewrite firstn_same by exact L. apply pairs_same. Qed.
  Lemma at_most {A} (os : list A) i o : length os = n -> nth_error os i = Some o -> (i < n)%nat.
  Proof. intros <- N. apply nth_error_Some. congruence. Qed.
  Lemma same_at {A} (v w : A) i : nth_error (repeat v n) i = Some w -> w = v.
  Proof. intros N. apply nth_error_In in N. apply repeat_spec in N. exact N. Qed.
  Ltac idx N L := let Hi := fresh "Hi" in pose proof (at_most _ _ _ L N) as Hi.

  Lemma flat_cmf len : (1 <= len)%nat -> exists os, run_new (cmf_new len) cmf_step c (ticks n) = Ok os /\ length os = n /\ steady os.
  Proof.
    intros L. destruct (C54_exact len c _ L H) as (os & E & LN & T). rewrite repeat_length in E, LN. exists os. split; [exact E|]. split; [exact LN|].
    apply (steady_intro _ (Fin (Rsum (map Rflow (repeat r len)) / Rsum (map rv (repeat r len))))). intros i o N. idx N LN. specialize (T i o N). rewrite firstn_same, window_same in T by exact Hi.
    destruct (len <=? S i)%nat; [|left; exact T]. destruct T as (T1 & T2 & _).
    destruct (Req_EM_T (Rsum (map rv (repeat r len))) 0) as [Q|Q]; [left; exact (T1 Q)|right; exact (T2 Q)].
  Qed.
  Lemma flat_vortex len : (1 <= len)%nat -> exists os, run_new (vortex_new len) vortex_step c (ticks n) = Ok os /\ length os = n /\ steady (map fst os) /\ steady (map snd os).
  Proof.
    intros L. destruct (C67_exact len c _ L H) as (os & E & LN & T). rewrite repeat_length in E, LN. exists os. split; [exact E|]. split; [exact LN|].
    assert (G : forall f : rbar5 -> rbar5 -> R, exists v, forall i o, nth_error os i = Some o -> match full_window len (pairs (firstn (S i) (repeat r n))) with None => True | Some w => option_map Fin (vortex_ratio f w) = None \/ option_map Fin (vortex_ratio f w) = Some v end).
    { intros f. exists (match option_map Fin (vortex_ratio f (repeat (r, r) len)) with Some v => v | None => XNaN end). intros i o N. idx N LN. rewrite pairs_of, window_same by exact Hi.
      destruct (len <=? i)%nat; [|exact I]. destruct (vortex_ratio f _); [right|left]; reflexivity. }
    destruct (G Rvp) as [a GA]. destruct (G Rvm) as [b GB]. split; [apply (steady_intro _ a)|apply (steady_intro _ b)]; intros i o N; rewrite nth_error_map in N;
      destruct (nth_error os i) as [[p m]|] eqn:No; [|discriminate| |discriminate]; cbn in N; injection N as <-; specialize (T i _ No); specialize (GA i _ No); specialize (GB i _ No);
      destruct (full_window len _); [destruct T as [T _]| |destruct T as [T _]|]; injection T as -> ->; auto.
  Qed.
  Lemma flat_rvgi len : (1 <= len)%nat -> exists os, run_new (rvgi_new len) rvgi_step c (ticks n) = Ok os /\ length os = n /\ steady (map fst os) /\ steady (map snd os).
  Proof.
    intros L. destruct (C63_exact len c _ L H) as (os & E & LN & T). rewrite repeat_length in E, LN. exists os. split; [exact E|]. split; [exact LN|].
    assert (W4 : forall k, windows 4 (repeat r k) = repeat (repeat r 4) (k - 3)).
    { induction k as [|k IH]; [reflexivity|]. change (repeat r (S k)) with (r :: repeat r k). cbn [windows]. rewrite IH. cbn [length]. rewrite repeat_length.
      destruct (Nat.leb_spec 4 (S k)) as [Q|Q].
      - replace (S k - 3)%nat with (S (k - 3)) by lia. cbn [repeat]. f_equal.
        change (firstn 4 (r :: repeat r k)) with (firstn 4 (repeat r (S k))). rewrite firstn_same by lia. reflexivity.
      - replace (S k - 3)%nat with 0%nat by lia. reflexivity. }
    assert (V : exists x, forall k, vigor len (repeat r k) = None \/ vigor len (repeat r k) = Some x).
    { eexists. intros k. unfold vigor. rewrite W4, window_same. destruct (len <=? k - 3)%nat; [|left; reflexivity].
      destruct (Req_EM_T _ 0); [left; reflexivity|right; reflexivity]. }
    destruct V as [x V]. split; [apply (steady_intro _ (Fin x))|apply (steady_intro _ (Fin (Rswmean (repeat x 4))))]; intros i o N; rewrite nth_error_map in N;
      destruct (nth_error os i) as [[p m]|] eqn:No; [|discriminate| |discriminate]; cbn in N; injection N as <-; idx No LN; destruct (T i _ No) as (T1 & T2 & _); cbn [fst snd] in T1, T2; rewrite firstn_same in T1, T2 by exact Hi.
    - rewrite T1. destruct (V (S i)) as [-> | ->]; [left|right]; reflexivity.
    - rewrite T2.
      destruct (window_only x 4 (each_prefix (vigor len) (repeat r (S i)))) as [-> | ->]; [|left; reflexivity|right; reflexivity].
      apply Forall_forall. intros o I. unfold each_prefix in I. apply in_map_iff in I. destruct I as (p' & <- & I). apply in_prefixes in I. destruct I as (j & J & ->).
      rewrite firstn_same by (rewrite repeat_length in J; lia). apply V.
  Qed.
  Lemma di_same f len k : (1 <= len)%nat -> only (100 * f r r / Rtr r r) (di f len (repeat r k)).
  Proof.
    intros L. unfold di.
    assert (P : Forall (only (100 * f r r / Rtr r r)) (each_prefix (di_now f len) (repeat r k))).
    { apply Forall_forall. intros o I. unfold each_prefix in I. apply in_map_iff in I. destruct I as (p & <- & I). apply in_prefixes in I. destruct I as (j & J & ->).
      rewrite repeat_length in J. rewrite firstn_same by exact J. unfold di_now, on_pairs. rewrite pairs_same, !map_same, !smooth_same by exact L. cbn [fst snd].
      destruct (j <? len)%nat; [left; reflexivity|]. destruct (Req_EM_T (Rtr r r) 0); [left|right]; reflexivity. }
    destruct (newest (present _)) as [x|] eqn:E; [|left; reflexivity]. right. apply newest_In, present_In in E. rewrite Forall_forall in P. destruct (P _ E) as [Q|Q]; [discriminate|].
    exact Q.
  Qed.
  Lemma flat_dmi len lensig : (1 <= len)%nat -> (1 <= lensig)%nat ->
    exists os, run_new (dmi_new len lensig) dmi_step c (ticks n) = Ok os /\ length os = n /\ steady (map fst (map fst os)) /\ steady (map snd (map fst os)).
  Proof.
    intros L1 L2. destruct (C57_di len lensig c _ L1 L2 H) as (os & E & LN & T). rewrite repeat_length in E, LN. exists os. split; [exact E|]. split; [exact LN|].
    rewrite !map_map.
    split; [apply (steady_intro _ (Fin (100 * Rup r r / Rtr r r)))|apply (steady_intro _ (Fin (100 * Rdown r r / Rtr r r)))]; intros i o N; rewrite nth_error_map in N;
      destruct (nth_error os i) as [p|] eqn:No; [|discriminate| |discriminate]; cbn in N; injection N as <-; idx No LN; destruct (T i _ No) as (T1 & T2 & _); rewrite firstn_same in T1, T2 by exact Hi.
    - rewrite T1. destruct (di_same Rup len (S i) L1) as [-> | ->]; auto.
    - rewrite T2. destruct (di_same Rdown len (S i) L1) as [-> | ->]; auto.
  Qed.
  Lemma closes_flat : map b_close (map bar_of (repeat r n)) = late 0 n (Fin (rc r)).
  Proof. rewrite map_map, map_same. unfold late. replace (n - 0)%nat with n by lia. reflexivity. Qed.
  Lemma flat_macd : exists os, run_new macd_default macd_step c (ticks n) = Ok os /\ length os = n /\ steady (map fst os) /\ steady (map snd os) /\
    steady (map (fun o => minus (fst o) (snd o)) os).
  Proof.
    pose proof (C58_macd_default c _ H) as E. rewrite map_length, repeat_length in E. rewrite E, closes_flat, !ema_late by lia. cbn [rbind].
    rewrite (zip_late minus _ _ n (Fin (rc r)) (Fin (rc r)) (Fin (rc r - rc r))) by (cbn; rewrite ?fin_sub; reflexivity).
    rewrite ema_late by lia. cbn [rbind]. eexists. split; [reflexivity|].
    split; [rewrite combine_length, !late_length; lia|]. match goal with |- steady (map fst (combine ?a ?b)) /\ _ => destruct (combine_lines a b) as [-> ->]; [rewrite !late_length; reflexivity|] end.
    split; [apply late_steady|]. split; [apply late_steady|].     match goal with |- steady (map _ (combine ?a ?b)) => change (steady (zip minus a b)) end.
    rewrite (zip_late minus _ _ n _ _ (Fin (rc r - rc r - (rc r - rc r)))) by (cbn; rewrite ?fin_sub; reflexivity). apply late_steady.
  Qed.
  Lemma flat_po : exists os, run_new po_default po_step c (ticks n) = Ok os /\ length os = n /\ steady os.
  Proof.
    pose proof (C58_price_default c _ H) as E. rewrite map_length, repeat_length in E. rewrite E, closes_flat, !sma_late by lia. cbn [rbind].
    rewrite (zip_late percent_difference _ _ n (Fin (rc r)) (Fin (rc r)) ((Fin (rc r) - Fin (rc r)) / Fin (rc r) * fZ 100)%num) by reflexivity.
    eexists. split; [reflexivity|]. split; [apply late_length|apply late_steady].
  Qed.
  Lemma flat_vo : exists os, run_new vo_default vo_step c (ticks n) = Ok os /\ length os = n /\ steady os.
  Proof.
    pose proof (C58_volume_default c _ H) as E. rewrite map_length, repeat_length in E.
    replace (map b_volume (map bar_of (repeat r n))) with (late 0 n (Fin (rv r))) in E by (rewrite map_map, map_same; unfold late; replace (n - 0)%nat with n by lia; reflexivity).
    rewrite E, !ema_late by lia. cbn [rbind]. eexists. split; [reflexivity|]. split; [unfold zip; rewrite map_length, combine_length, !late_length; lia|].
    destruct (feqb (Fin (rv r)) (fZ 0)) eqn:Q.
    - apply (steady_intro _ XNaN). intros i o N. left. unfold zip in N. rewrite nth_error_map in N. destruct (nth_error (combine _ _) i) as [[x y]|] eqn:NC; [|discriminate].
      cbn in N. injection N as <-. apply combine_In in NC || apply nth_error_In in NC. pose proof (in_combine_l _ _ _ _ NC) as I1. pose proof (in_combine_r _ _ _ _ NC) as I2.
      apply In_nth_error in I1, I2. destruct I1 as [j1 I1], I2 as [j2 I2]. rewrite late_nth in I1, I2.
      destruct (j1 <? n)%nat; [|discriminate]. destruct (j2 <? n)%nat; [|discriminate]. destruct (j1 <? _)%nat; injection I1 as <-; [reflexivity|]. destruct (j2 <? _)%nat; injection I2 as <-; [reflexivity|].
      cbn [percent_difference_nz]. rewrite Q. reflexivity.
    - rewrite (zip_late percent_difference_nz _ _ n (Fin (rv r)) (Fin (rv r)) ((Fin (rv r) - Fin (rv r)) / Fin (rv r) * fZ 100)%num); try reflexivity; [apply late_steady|]. cbn [percent_difference_nz]. rewrite Q. reflexivity.
  Qed.
  Lemma flat_ao : exists os, run_new ao_default ao_step c (ticks n) = Ok os /\ length os = n /\ steady os.
  Proof.
    assert (OK : Forall (src_ok SHL2) (map bar_of (repeat r n))).
    { apply Forall_forall. intros b I. apply in_map_iff in I. destruct I as (x & <- & _). cbn. discriminate. }
    pose proof (C58_awesome_default c _ H OK) as E. rewrite map_length, repeat_length in E.
    assert (ES : map (src_of SHL2) (map bar_of (repeat r n)) = late 0 n (Fin ((rh r + rl r) / 2))).
    { rewrite map_map, map_same. unfold late. replace (n - 0)%nat with n by lia. cbn [Nat.min repeat app]. f_equal. cbn [src_of bar_of b_high b_low]. unfold hl2.
      rewrite fin_add, fin_Z, fin_div by lra. reflexivity. }
    rewrite E, ES, !sma_late by lia. cbn [rbind]. set (m := (rh r + rl r) / 2).
    rewrite (zip_late minus _ _ n (Fin m) (Fin m) (Fin (m - m))) by (cbn; rewrite ?fin_sub; reflexivity). cbn zeta.
    eexists. split; [reflexivity|]. split; [unfold zip; rewrite map_length, combine_length; cbn [length]; rewrite !late_length; lia|].
    apply (steady_intro _ (Fin (m - m - (m - m)))). intros i o N. unfold zip in N. rewrite nth_error_map in N. destruct (nth_error (combine _ _) i) as [[x y]|] eqn:NC; [|discriminate].
    cbn in N. injection N as <-. apply nth_error_In in NC. pose proof (in_combine_l _ _ _ _ NC) as I1. pose proof (in_combine_r _ _ _ _ NC) as I2.
    assert (P : forall z, In z (late (Nat.max (0 + 5 - 1) (0 + 34 - 1)) n (Fin (m - m))) -> only (Fin (m - m)) z).
    { intros z I. apply In_nth_error in I. destruct I as [j I]. rewrite late_nth in I. destruct (j <? n)%nat; [|discriminate]. destruct (j <? _)%nat; injection I as <-; [left|right]; reflexivity. }
    destruct (P x I1) as [-> | ->]; [left; reflexivity|]. destruct I2 as [<-|I2]; [left; reflexivity|]. destruct (P y I2) as [-> | ->]; [left; reflexivity|right].
    cbn [minus]. rewrite fin_sub. reflexivity.
  Qed.
  (** Indicators of a source. *)
  Variable v : R.
  Variable src : any_src (F := xr).
  Hypothesis FE : feeds c src (full (repeat v n)).
  Lemma len_full : length (full (repeat v n)) = n.
  Proof. unfold full. rewrite map_length. apply repeat_length. Qed.
  Lemma flat_diffs k : diffs (repeat v (S k)) = repeat 0 k.
  Proof. induction k as [|k IH]; [reflexivity|]. change (repeat v (S (S k))) with (v :: v :: repeat v k). cbn [diffs repeat]. f_equal; [ring|exact IH]. Qed.
  Lemma flat_cmo len : (2 <= len)%nat -> exists os, run_new (cmo_new src len) cmo_step c (ticks n) = Ok os /\ length os = n /\ steady os.
  Proof.
    intros L. destruct (C55_exact len c src _ L FE) as (os & E & LN & T). rewrite repeat_length in E, LN. exists os. split; [exact E|]. split; [exact LN|].
    apply (steady_intro _ XNaN). intros i o N. idx N LN. specialize (T i o N). rewrite firstn_same in T by exact Hi.
    rewrite flat_diffs, window_same in T. left. destruct (len <=? i)%nat; [|exact T]. apply T. apply Forall_forall. intros x I. apply repeat_spec in I. exact I.
  Qed.
  Lemma flat_bb len mult : (2 <= len)%nat -> exists os, run_new (bb_new src len (Fin mult)) bbpb_step c (ticks n) = Ok os /\ length os = n /\ steady os.
  Proof.
    intros L. destruct (C59_exact len mult c src _ L FE) as (os & ws & E & E' & LN & LN' & T). rewrite repeat_length in E, LN, LN'. exists os. split; [exact E|]. split; [exact LN|].
    apply (steady_intro _ XNaN). intros i o N. idx N LN.
    destruct (nth_error ws i) as [w|] eqn:NW; [|apply nth_error_None in NW; lia]. assert (NV : nth_error (repeat v n) i = Some v) by (rewrite nth_error_repeat by exact Hi; reflexivity).
    specialize (T i v o w NV N NW). rewrite firstn_same, window_same in T by exact Hi. left. destruct (len <=? S i)%nat; [|apply T]. apply T.
    unfold Rband_dev, Rssd_snap. rewrite Rmean_same, map_same, Rsum_same by lia. replace (v - v) with 0 by ring.
    replace (snap 0) with 0 by (unfold snap; destruct (Rlt_dec _ _); reflexivity).
    replace (INR len * 0 ^ 2 / INR (length (repeat v len))) with 0; [rewrite sqrt_0; ring|]. rewrite repeat_length. pose proof (PExact.INR_pos len ltac:(lia)). field. lra.
  Qed.
  Lemma flat_cci len : (2 <= len)%nat -> exists os, run_new (cci_new src len) cci_step c (ticks n) = Ok os /\ length os = n /\ steady os.
  Proof.
    intros L. destruct (C60_exact len c src _ L FE) as (os & E & LN & T). rewrite repeat_length in E, LN. exists os. split; [exact E|]. split; [exact LN|].
    apply (steady_intro _ XNaN). intros i o N. idx N LN. assert (NV : nth_error (repeat v n) i = Some v) by (rewrite nth_error_repeat by exact Hi; reflexivity).
    specialize (T i v o NV N). rewrite firstn_same, window_same in T by exact Hi. left. destruct (len <=? S i)%nat; [|exact T]. apply T.
    unfold Rmad. rewrite map_same, !Rmean_same by lia. replace (v - v) with 0 by ring. apply Rabs_R0.
  Qed.
  Lemma flat_coppock long short len : (1 <= long)%nat -> (1 <= short)%nat -> (1 <= len)%nat ->
    exists os, run_new (cop_new src long short len) cop_step c (ticks n) = Ok os /\ length os = n /\ steady os.
  Proof.
    intros L1 L2 L3. destruct (C68_exact long short len c src _ L1 L2 L3 (proj2 H) FE) as (os & E & LN & T). rewrite repeat_length in E, LN. exists os. split; [exact E|]. split; [exact LN|].
    apply (steady_intro _ (Fin (Rwmean (repeat 0 len)))). intros i o N. idx N LN. specialize (T i o N). rewrite firstn_same in T by exact Hi. rewrite T.
    assert (R0 : forall k j, Rroc k (repeat v j) = None \/ Rroc k (repeat v j) = Some 0).
    { intros k j. unfold Rroc. destruct (ago k (repeat v j)) as [o'|] eqn:A; [|left; reflexivity]. destruct (newest (repeat v j)) as [x|] eqn:B; [|left; reflexivity].
      assert (o' = v). { unfold ago in A. destruct (k <? length (repeat v j))%nat; [|discriminate]. apply nth_error_In, repeat_spec in A. exact A. }
      assert (x = v). { apply newest_In in B. apply repeat_spec in B. exact B. }
      subst. destruct (Req_EM_T v 0); [left; reflexivity|right]. f_equal. field. assumption. }
    assert (R2 : forall j, Rroc2 long short (repeat v j) = None \/ Rroc2 long short (repeat v j) = Some 0).
    { intros j. unfold Rroc2. destruct (R0 long j) as [-> | ->]; [left; reflexivity|]. destruct (R0 short j) as [-> | ->]; [left; reflexivity|right]. f_equal. ring. }
    destruct (window_only 0 len (each_prefix (Rroc2 long short) (repeat v (S i)))) as [-> | ->]; [|left; reflexivity|right; reflexivity].
    apply Forall_forall. intros o' I. unfold each_prefix in I. apply in_map_iff in I. destruct I as (p' & <- & I). apply in_prefixes in I. destruct I as (j & J & ->).
    rewrite firstn_same'. apply R2.
  Qed.
  Lemma flat_rsi len : (2 <= len)%nat -> forall i, only XNaN (rsi_out len (firstn (S i) (full (repeat v n)))).
  Proof.
    intros L i. rewrite full_firstn. rewrite (rsi_full len _ L). unfold Rrsi, Rgains, Rlosses. rewrite firstn_same'.
    destruct (Nat.min (S i) n) as [|k]; [left; unfold Rsmooth; cbn [repeat diffs map length]; destruct len; [lia|reflexivity]|].
    rewrite flat_diffs, !map_same, !smooth_same by lia. destruct (k <? len)%nat; [left; reflexivity|right]. f_equal.
    replace (Rmax 0 0) with 0 by (rewrite Rmax_left; lra). replace (Rmax (- 0) 0) with 0 by (rewrite Rmax_right; lra).
    unfold Rrsi_of. destruct (Req_EM_T 0 0); [reflexivity|lra].
  Qed.
End Flat.

(** ** Any number format *)
Section FlatAny.
  Context {F : Type} {NF : Num F} {OF : OrdNum F}.
  Local Open Scope num_scope.
  Lemma lt_self (a : F) : (a <? a) = false.
  Proof. destruct (a <? a) eqn:E; [|reflexivity]. rewrite (lt_asym _ _ E) in E. discriminate. Qed.
  (** Two lines that are always equal do not cross. *)
  Lemma equal_lines (xs : list (option F * option F)) i : Forall (fun x => fst x = snd x) xs -> ~ went_over xs i /\ ~ went_under xs i.
  Proof.
    intros H. split; intros (j & a & b & pa & pb & -> & NA & _ & Q & _); unfold lines in NA; apply nth_error_In in NA; rewrite Forall_forall in H; specialize (H _ NA); cbn in H;
      injection H as <-; rewrite lt_self in Q; discriminate.
  Qed.
  Lemma equal_silent (c : ctx F) xs : Forall (fun x => fst x = snd x) xs ->
    exists os, run cross_strategy_step c cross_new xs = Ok os /\ length os = length xs /\ silent os.
  Proof.
    intros K. destruct (C50_line_cross c xs) as (os & E & L & T). exists os. split; [exact E|]. split; [exact L|].
    apply silent_intro. intros i o N. destruct (T i o N) as [T1 T2]. destruct (equal_lines xs i K). tauto.
  Qed.
  Lemma equal_dmi_silent (c : ctx F) t xs : Forall (fun x => fst x = snd x) (map fst xs) ->
    exists os, run dmi_strategy_step c (dmi_strategy_new t) xs = Ok os /\ length os = length xs /\ silent os.
  Proof.
    intros K. destruct (C50_dmi_strategy c t xs) as (os & E & L & T). exists os. split; [exact E|]. split; [exact L|].
    apply silent_intro. intros i o N. destruct (T i o N) as [T1 T2]. destruct (equal_lines _ i K). tauto.
  Qed.
  Variable b : bar F.
  Variable n : nat.
  Variable c : ctx F.
  Hypothesis H : fresh_over c (repeat b n).
  Lemma fields {A} (k : bar F -> option A) i : map k (firstn (S i) (repeat b n)) = repeat (k b) (Nat.min (S i) n).
  Proof. rewrite firstn_same', map_same. reflexivity. Qed.
  Lemma same_prefixes {A B} (x : A) (f g : list A -> B) m : (forall k, f (repeat x k) = g (repeat x k)) -> each_prefix f (repeat x m) = each_prefix g (repeat x m).
  Proof. intros E. apply map_ext_in. intros p I. apply in_prefixes in I. destruct I as (j & _ & ->). rewrite firstn_same'. apply E. Qed.
  Lemma cur_same {A B} (k : A -> option B) x m : cur k (repeat x (S m)) = k x.
  Proof. replace (repeat x (S m)) with (repeat x m ++ [x]); [apply cur_snoc|]. change [x] with (repeat x 1). rewrite <- repeat_app. f_equal. lia. Qed.
  Lemma prv_same {A B} (k : A -> option B) x m : prv k (repeat x (S (S m))) = k x.
  Proof.
    replace (repeat x (S (S m))) with (repeat x m ++ [x; x]); [unfold prv, ago; rewrite app_length; cbn [length]|change [x; x] with (repeat x 2); rewrite <- repeat_app; f_equal; lia].
    destruct (Nat.ltb_spec 1 (length (repeat x m) + 2)); [|lia]. rewrite nth_error_app2 by lia. replace (_ - 1 - 1 - _)%nat with 0%nat by lia. reflexivity.
  Qed.
  Lemma any_bop : exists os, run bop_step c tt (ticks n) = Ok os /\ length os = n /\ steady os.
  Proof.
    destruct (C53_bop c _ H) as (os & E & LN & T). rewrite repeat_length in E, LN. exists os. split; [exact E|]. split; [exact LN|].
    apply (steady_intro _ (match b_open b, b_high b, b_low b, b_close b with
                            | Some o, Some h, Some l, Some cl => (cl - o) / (h - l)
                            | _, _, _, _ => fZ 0 end)). intros i o N.
    assert (Hi : (i < n)%nat) by (rewrite <- LN; apply nth_error_Some; congruence).
    specialize (T i b). rewrite N in T. specialize (T ltac:(rewrite nth_error_repeat by exact Hi; reflexivity)). injection T as ->.
    destruct (b_open b), (b_high b), (b_low b), (b_close b); auto. destruct (_ ==? _); auto.
  Qed.
  Lemma only_repeat {A} (o : option A) u m : only u o -> Forall (only u) (repeat o m).
  Proof. intros Q. apply Forall_forall. intros x I. apply repeat_spec in I. subst. exact Q. Qed.
  Lemma highest_only u len (o : option F) m : (1 <= len)%nat -> only u o -> exists us, run_new (highest_new len) highest_step c (repeat o m) = Ok us /\ Forall (only u) us.
  Proof.
    intros L Q. rewrite (makes_run _ _ _ _ c _ (highest_makes len L) I). eexists. split; [reflexivity|]. apply Forall_forall. intros x J.
    unfold each_prefix in J. apply in_map_iff in J. destruct J as (p & <- & J). apply in_prefixes in J. destruct J as (j & _ & ->). rewrite firstn_same'.
    unfold highest_out. destruct (_ <=? _)%nat; [|left; reflexivity]. apply only_best, only_lastn, only_repeat, Q.
  Qed.
  Lemma lowest_only u len (o : option F) m : (1 <= len)%nat -> only u o -> exists us, run_new (lowest_new len) lowest_step c (repeat o m) = Ok us /\ Forall (only u) us.
  Proof.
    intros L Q. rewrite (makes_run _ _ _ _ c _ (lowest_makes len L) I). eexists. split; [reflexivity|]. apply Forall_forall. intros x J.
    unfold each_prefix in J. apply in_map_iff in J. destruct J as (p & <- & J). apply in_prefixes in J. destruct J as (j & _ & ->). rewrite firstn_same'.
    unfold lowest_out. destruct (_ <=? _)%nat; [|left; reflexivity]. apply only_best, only_lastn, only_repeat, Q.
  Qed.
  Lemma some_only {A} (d : A) (o : option A) : exists u, only u o.
  Proof. destruct o as [x|]; [exists x; right; reflexivity|exists d; left; reflexivity]. Qed.
  Lemma any_williams len src s : (1 <= len)%nat -> feeds c src (repeat s n) -> exists os, run_new (wpr_new src len) wpr_step c (ticks n) = Ok os /\ length os = n /\ steady os.
  Proof.
    intros L FE. destruct (C52_williams len c src (repeat s n) _ L ltac:(rewrite !repeat_length; reflexivity) FE H) as (us & ls & os & E1 & E2 & E3 & EO). rewrite repeat_length in E3.
    exists os. split; [exact E3|]. split.
    { unfold run_new in E3. destruct (wpr_new src len); [|discriminate]. cbn [rbind] in E3. apply run_length in E3. rewrite E3. apply repeat_length. }
    rewrite map_same in E1, E2. destruct (some_only (fZ 0) (b_high b)) as [hv Q1]. destruct (some_only (fZ 0) (b_low b)) as [lv Q2]. destruct (some_only (fZ 0) s) as [sv Q3].
    destruct (highest_only hv len _ n L Q1) as (us' & E1' & O1). destruct (lowest_only lv len _ n L Q2) as (ls' & E2' & O2).
    rewrite E1 in E1'. injection E1' as <-. rewrite E2 in E2'. injection E2' as <-.
    apply (steady_intro _ ((sv - hv) / (hv - lv) * fZ 100)). intros i o N. rewrite EO in N. unfold zip3, zip in N. rewrite nth_error_map in N.
    destruct (nth_error (combine _ ls) i) as [[[x y] z]|] eqn:NC; [|discriminate]. cbn [option_map fst snd] in N. injection N as <-. apply nth_error_In in NC.
    pose proof (in_combine_r _ _ _ _ NC) as I3. apply in_combine_l in NC. pose proof (in_combine_l _ _ _ _ NC) as I1. apply in_combine_r in NC.
    apply repeat_spec in I1. subst x. rewrite Forall_forall in O1, O2. destruct Q3 as [-> | ->]; [left; reflexivity|].
    destruct (O1 _ NC) as [-> | ->]; [left; reflexivity|]. destruct (O2 _ I3) as [-> | ->]; [left; reflexivity|]. destruct (_ ==? _); auto.
  Qed.
  Variables hv lv : F.
  Hypothesis EH : b_high b = Some hv.
  Hypothesis EL : b_low b = Some lv.
  Lemma any_aroon len : (1 <= len)%nat -> (Z.of_nat len <= 2 ^ 31)%Z -> fisnan hv = false -> fisnan lv = false ->
    exists os, run_new (aroon_new len) aroon_step c (ticks n) = Ok os /\ length os = n /\ steady (map fst os) /\ steady (map snd os).
  Proof.
    intros L B N1 N2.
    assert (HL : Forall has_hl (repeat b n)).
    { apply Forall_forall. intros x I. apply repeat_spec in I. subst x. split; congruence. }
    assert (PR : forall x m, fisnan x = false -> no_nan (present (repeat (Some x) m))).
    { intros x m Nx. induction m as [|m IH]; [constructor|]. cbn. constructor; assumption. }
    destruct (C47_aroon len c _ L B H HL) as (os & E & LN & T); [rewrite map_same, EH; apply PR, N1|rewrite map_same, EL; apply PR, N2|].
    rewrite repeat_length in E, LN. exists os. split; [exact E|]. split; [exact LN|].
    assert (G : forall i o, nth_error os i = Some o -> o = (None, None) \/ o = (Some (aroon_of len (len - 1)), Some (aroon_of len (len - 1)))).
    { intros i o N. specialize (T i o N). cbn zeta in T. destruct (Nat.ltb_spec (S i) len) as [Q|Q]; [left; exact T|right].
      assert (Hi : (i < n)%nat) by (rewrite <- LN; apply nth_error_Some; congruence).
      destruct T as (ku & kd & K1 & K2 & -> & X1 & X2). rewrite map_same, firstn_same, lastn_same, Nat.min_l in X1, X2 by lia. rewrite EH in X1. rewrite EL in X2.
      assert (U : ku = (len - 1)%nat).
      { destruct X1 as (m & M1 & M2 & M3). destruct (Nat.eq_dec ku (len - 1)) as [|D]; [assumption|exfalso].
        assert (m = hv) by (apply nth_error_In, repeat_spec in M1; congruence). subst m.
        specialize (M3 0%nat hv ltac:(lia) ltac:(rewrite nth_error_repeat by lia; reflexivity)). rewrite lt_self in M3. discriminate. }
      assert (D : kd = (len - 1)%nat).
      { destruct X2 as (m & M1 & M2 & M3). destruct (Nat.eq_dec kd (len - 1)) as [|D]; [assumption|exfalso].
        assert (m = lv) by (apply nth_error_In, repeat_spec in M1; congruence). subst m.
        specialize (M3 0%nat lv ltac:(lia) ltac:(rewrite nth_error_repeat by lia; reflexivity)). rewrite lt_self in M3. discriminate. }
      rewrite U, D. reflexivity. }
    split; apply (steady_intro _ (aroon_of len (len - 1))); intros i o N; rewrite nth_error_map in N; destruct (nth_error os i) as [p|] eqn:No; try discriminate; cbn in N; injection N as <-;
      destruct (G i p No) as [-> | ->]; auto.
  Qed.
  (** The two directional lines are the same; so are the two vortex lines. *)
  Lemma any_dmi len lensig cl : (1 <= len)%nat -> (1 <= lensig)%nat -> b_close b = Some cl -> (lv - lv <? hv - hv) = false -> (hv - hv <? lv - lv) = false ->
    exists os, run_new (dmi_new len lensig) dmi_step c (ticks n) = Ok os /\ length os = n /\ Forall (fun o => fst o = snd o) (map fst os).
  Proof.
    intros L1 L2 EC Z1 Z2.
    assert (HL : Forall has_hlc (repeat b n)).
    { apply Forall_forall. intros x I. apply repeat_spec in I. subst x. unfold has_hlc, has_hl. rewrite EH, EL, EC. repeat split; discriminate. }
    pose proof (dmi_run len lensig c _ L1 L2 H HL) as E. rewrite repeat_length in E. rewrite E. eexists. split; [reflexivity|]. split; [rewrite length_each_prefix; apply repeat_length|].
    apply Forall_forall. intros o I. apply in_map_iff in I. destruct I as (p & <- & I). unfold each_prefix in I. apply in_map_iff in I. destruct I as (h & <- & I).
    apply in_prefixes in I. destruct I as (j & J & ->). unfold dmi_out. cbn [fst snd]. rewrite firstn_same'. unfold dmi_di. f_equal. apply same_prefixes. intros k.
    unfold dmi_raw, dmi_rma. do 3 f_equal. apply same_prefixes. intros m. unfold plus_dm, minus_dm, dm_up, dm_down.
    destruct m as [|[|m]]; [reflexivity|reflexivity|]. rewrite !cur_same, !prv_same, EH, EL. cbn [ps_diff dmi_plus_dm dmi_minus_dm]. unfold fgtb. rewrite Z1, Z2. reflexivity.
  Qed.
  Lemma any_vortex len : (1 <= len)%nat -> fabs (hv - lv) = fabs (lv - hv) ->
    exists os, run_new (vortex_new len) vortex_step c (ticks n) = Ok os /\ length os = n /\ Forall (fun o => fst o = snd o) os.
  Proof.
    intros L A.
    assert (HL : Forall has_hl (repeat b n)).
    { apply Forall_forall. intros x I. apply repeat_spec in I. subst x. split; congruence. }
    pose proof (vortex_run len c _ L H HL) as E. rewrite repeat_length in E. rewrite E. eexists. split; [reflexivity|]. split; [rewrite length_each_prefix; apply repeat_length|].
    apply Forall_forall. intros o I. unfold each_prefix in I. apply in_map_iff in I. destruct I as (h & <- & I).
    apply in_prefixes in I. destruct I as (j & J & ->). rewrite firstn_same'. unfold vortex_out. cbn [fst snd]. do 2 f_equal. apply same_prefixes. intros m. unfold vx_plus, vx_minus.
    destruct m as [|[|m]]; [reflexivity|cbn; rewrite EH, EL; reflexivity|]. rewrite !cur_same, !prv_same, EH, EL. cbn [ps_diff ps_abs option_map]. rewrite A. reflexivity.
  Qed.
End FlatAny.

(** ** f64 *)
Section Flat64.
  Variable log10 : f64 -> f64.
  #[local] Instance N118 : Num f64 := IEEE log10.
  #[local] Instance O118 : OrdNum f64 := IEEEOrd log10.
  Local Open Scope R_scope.
  Notation fexp64 := (SpecFloat.fexp 53 1024).
  Notation rnd r := (round radix2 fexp64 (round_mode mode_NE) r).
  #[local] Instance vexp118 : Valid_exp fexp64.
  Proof. apply fexp_correct. reflexivity. Qed.
  Lemma abs_sub (x y : f64) : is_finite x = true -> is_finite y = true -> fabs (fsub x y) = fabs (fsub y x).
  Proof.
    intros Fx Fy. change (Babs (Bminus mode_NE x y) = Babs (Bminus mode_NE y x)).
    pose proof (minus_rounded x y Fx Fy) as P. pose proof (minus_rounded y x Fy Fx) as Q.
    assert (E : rnd (B2R y - B2R x) = - rnd (B2R x - B2R y)) by (replace (B2R y - B2R x) with (- (B2R x - B2R y)) by lra; apply round_NE_opp).
    pose proof (bpow_gt_0 radix2 1024) as T. unfold rounded in *. rewrite E in Q.
    destruct P as [(F1 & E1 & L1)|[[-> L1]|[-> L1]]], Q as [(F2 & E2 & L2)|[[-> L2]|[-> L2]]]; try reflexivity.
    - apply B2R_Bsign_inj; [destruct (Bminus mode_NE x y); try discriminate; reflexivity|destruct (Bminus mode_NE y x); try discriminate; reflexivity| |].
      + rewrite !B2R_Babs, E1, E2, Rabs_Ropp. reflexivity.
      + destruct (Bminus mode_NE x y), (Bminus mode_NE y x); try discriminate; reflexivity.
    - exfalso. rewrite <- Rabs_Ropp in L1. rewrite Rabs_pos_eq in L1; lra.
    - exfalso. rewrite <- Rabs_Ropp in L1. rewrite Rabs_left in L1; lra.
    - exfalso. rewrite Rabs_left in L2; lra.
    - exfalso. rewrite Rabs_pos_eq in L2; lra.
  Qed.
  Lemma sub_self (x : f64) : is_finite x = true -> zeroish (fsub x x).
  Proof.
    intros Fx. change (zeroish (Bminus mode_NE x x)). pose proof (minus_rounded x x Fx Fx) as P. unfold rounded in P. rewrite Rminus_diag_eq, round_0 in P by (reflexivity || auto with typeclass_instances).
    pose proof (bpow_gt_0 radix2 1024) as T. destruct P as [(F1 & E1 & _)|[[_ L1]|[_ L1]]]; [|lra|lra].
    destruct (Bminus mode_NE x x) as [s|s| |s m e Hb]; try discriminate; [exists s; reflexivity|]. exfalso. cbn [B2R] in E1. apply eq_0_F2R in E1. cbn in E1. destruct s; discriminate.
  Qed.
  Lemma zero_order (y z : f64) : zeroish y -> zeroish z -> fltb y z = false.
  Proof. intros [s ->] [t ->]. destruct s, t; reflexivity. Qed.
  Lemma nan_absorbs : absorbs (B754_nan : f64).
  Proof. split; [intros x; destruct x; auto|]. split; [reflexivity|]. split; reflexivity. Qed.
  Lemma rsi_flat64 len (x : f64) n : (2 <= len)%nat -> (Z.of_nat len <= 2 ^ 53)%Z -> is_finite x = true ->
    forall i, only (B754_nan : f64) (rsi_out len (firstn (S i) (repeat (Some x) n))).
  Proof.
    intros L B Fx i. rewrite firstn_same'. destruct (Nat.min (S i) n) as [|k]; [left; unfold rsi_out, ema_out; cbn [repeat]; change (present (gains [])) with (@nil f64); rewrite ema_val_nil by lia; reflexivity|].
    replace (repeat (Some x) (S k)) with (map Some (repeat x (S k))) by apply map_same.
    change N118 with (N117 log10). unfold rsi_out, ema_out. rewrite gains_are, losses_are, pairs_same, !map_same. cbn [fst snd].
    destruct (Nat.leb_spec len k) as [Q|Q].
    2:{ left. unfold ema_val. destruct (Nat.eqb_spec len 1); [lia|]. rewrite !repeat_length. destruct (Nat.ltb_spec k len); [reflexivity|lia]. }
    right. pose proof (sub_self x Fx) as Z. destruct Z as [s Z].
    assert (G : zeroish (gain_of log10 x x) /\ zeroish (loss_of log10 x x)).
    { unfold gain_of, loss_of. change N118 with (N117 log10) in Z. rewrite Z. destruct s; split; (exists false; reflexivity) || (exists true; reflexivity). }
    destruct G as [G1 G2].
    rewrite !rma_zero; [|exact L|exact B|rewrite repeat_length; exact Q|apply Forall_forall; intros y I; apply repeat_spec in I; subst; assumption
      |exact L|exact B|rewrite repeat_length; exact Q|apply Forall_forall; intros y I; apply repeat_spec in I; subst; assumption].
    cbn [rsi_val]. f_equal.
  Qed.
  Lemma racc_zero len (h : list (option f64)) : Forall (fun o => match o with Some y => zeroish y | None => True end) h -> zeroish (racc len h) /\ zeroish (rsum len h).
  Proof.
    assert (A : forall u v : f64, zeroish u -> zeroish v -> zeroish (fadd u v) /\ zeroish (fsub u v)).
    { intros u v [s ->] [t ->]. destruct s, t; split; (exists false; reflexivity) || (exists true; reflexivity). }
    assert (AO : forall (u : f64) o, zeroish u -> match o with Some y => zeroish y | None => True end -> zeroish (oadd u o) /\ zeroish (osub u o)).
    { intros u [y|] U Y; [apply A; assumption|split; exact U]. }
    assert (P : forall h : list (option f64), Forall (fun o => match o with Some y => zeroish y | None => True end) h -> zeroish (racc len h)).
    { intros h0 H0. unfold racc. assert (PP : forall p, In p (prefixes h0) -> Forall (fun o => match o with Some y => zeroish y | None => True end) p).
      { intros p I. apply in_prefixes in I. destruct I as (j & _ & ->). rewrite Forall_forall in *. intros y Iy. apply H0. eapply firstn_In, Iy. }
      assert (Z0 : zeroish (fZ 0 : f64)) by (exists false; reflexivity). revert Z0. generalize (fZ 0 : f64). induction (prefixes h0) as [|p ps IH]; intros u U; [exact U|].
      cbn [fold_left]. apply IH; [intros q I; apply PP; right; exact I|]. pose proof (PP p (or_introl eq_refl)) as Hp. rewrite Forall_forall in Hp.
      assert (J : forall o, In o p \/ o = None -> match o with Some y => zeroish y | None => True end) by (intros o [I| ->]; [apply Hp, I|exact I]).
      apply AO; [apply AO; [exact U|]|].
      - destruct (newest p) as [o|] eqn:E; [|exact I]. apply J. left. destruct o; (apply nth_error_In in E; exact E).
      - unfold ago. destruct (len - 1 <? length p)%nat; [|exact I]. destruct (nth_error p _) as [o|] eqn:E; [|exact I]. apply J. left. destruct o; (apply nth_error_In in E; exact E). }
    intros H. split; [apply P, H|]. unfold rsum. apply AO.
    - apply P. destruct h as [|y h _] using rev_ind; [constructor|]. rewrite removelast_last. apply Forall_app in H. apply H.
    - destruct (newest h) as [[y|]|] eqn:E; try exact I. cbn [join]. apply nth_error_In in E. rewrite Forall_forall in H. exact (H _ E).
  Qed.
  Lemma cmo_flat64 len c src (x : f64) n : (2 <= len)%nat -> is_finite x = true -> feeds c src (repeat (Some x) n) ->
    exists os, run_new (cmo_new src len) cmo_step c (ticks n) = Ok os /\ length os = n /\ steady os.
  Proof.
    intros L Fx FE. pose proof (cmo_run len c src _ L FE) as E. rewrite repeat_length in E. rewrite E. eexists. split; [reflexivity|]. split; [rewrite length_each_prefix; apply repeat_length|].
    apply (steady_intro _ (B754_nan : f64)). intros i o N. apply nth_each in N. destruct N as [_ ->]. left. rewrite firstn_same'. unfold cmo_out.
    assert (M : forall k, match momentum (repeat (Some x) k) with Some y => zeroish y | None => True end).
    { intros k. unfold momentum. destruct k as [|[|k]]; [exact I|exact I|].
      assert (E1 : join (newest (repeat (Some x) (S (S k)))) = Some x) by (pose proof (cur_same (fun o => o) (Some x) (S k)) as Q; unfold cur in Q; destruct (newest _) as [[?|]|]; exact Q).
      assert (E2 : join (ago 1 (repeat (Some x) (S (S k)))) = Some x) by (pose proof (prv_same (fun o => o) (Some x) k) as Q; unfold prv in Q; destruct (ago 1 _) as [[?|]|]; exact Q).
      rewrite E1, E2. apply sub_self, Fx. }
    assert (G : forall (f : option f64 -> option f64) k, (forall o, match o with Some y => zeroish y | None => True end -> match f o with Some y => zeroish y | None => True end) ->
      Forall (fun o => match o with Some y => zeroish y | None => True end) (each_prefix (fun p => f (momentum p)) (repeat (Some x) k))).
    { intros f k Hf. apply Forall_forall. intros o I. unfold each_prefix in I. apply in_map_iff in I. destruct I as (p & <- & I). apply in_prefixes in I. destruct I as (j & _ & ->).
      rewrite firstn_same'. apply Hf, M. }
    pose proof (G cmo_up (Nat.min (S i) n)) as G1. pose proof (G cmo_down (Nat.min (S i) n)) as G2.
    match type of G1 with ?P -> _ => assert (U : P); [|specialize (G1 U); clear U] end.
    { intros [y|] Y; [|exact I]. destruct Y as [s ->]. destruct s; cbn; (exists false; reflexivity) || (exists true; reflexivity). }
    match type of G2 with ?P -> _ => assert (U : P); [|specialize (G2 U); clear U] end.
    { intros [y|] Y; [|exact I]. destruct Y as [s ->]. destruct s; cbn; (exists false; reflexivity) || (exists true; reflexivity). }
    apply (racc_zero len) in G1, G2. destruct G1 as [_ G1], G2 as [_ G2]. unfold cmo_value, sum_out.
    destruct (window len (each_prefix (fun p => cmo_up (momentum p)) _)); [|reflexivity]. destruct (window len (each_prefix (fun p => cmo_down (momentum p)) _)); [|reflexivity].
    cbn [option_map]. revert G1 G2. generalize (rsum len (each_prefix (fun p => cmo_up (momentum p)) (repeat (Some x) (Nat.min (S i) n)))), (rsum len (each_prefix (fun p => cmo_down (momentum p)) (repeat (Some x) (Nat.min (S i) n)))).
    intros u d [s ->] [t ->]. destruct s, t; reflexivity.
  Qed.
End Flat64.

(** ** Whole strategies *)
(** The indicators with the signal components made for them, for any lengths
    and thresholds ([src]: the source the indicator reads, where it has one):
    those built from comparisons, and quotients of sums of zeros, *)
Inductive plain {F} {NF : Num F} (src : any_src (F := F)) : forall {S O T : Type}, res S -> (ctx F -> S -> unit -> res (S * O)) -> T -> (ctx F -> T -> O -> res (T * option direction)) -> Prop :=
| W_aroon len : (1 <= len)%nat -> (Z.of_nat len <= 2 ^ 31)%Z -> plain src (aroon_new len) aroon_step aroons_new aroons_step
| W_bop lo hi : plain src (Ok tt) bop_step (osc_strategy_new lo hi) thr_step
| W_cmo len lo hi : (2 <= len)%nat -> plain src (cmo_new src len) cmo_step (osc_strategy_new lo hi) thr_step
| W_crsi l1 l2 l3 lo hi : (2 <= l1)%nat -> (Z.of_nat l1 <= 2 ^ 53)%Z -> (2 <= l2)%nat -> (1 <= l3)%nat -> plain src (crsi_new src l1 l2 l3) crsi_step (osc_strategy_new lo hi) thr_step
| W_dmi len lensig t : (1 <= len)%nat -> (1 <= lensig)%nat -> plain src (dmi_new len lensig) dmi_step (dmi_strategy_new t) dmi_strategy_step
| W_rsi len lo hi : (2 <= len)%nat -> (Z.of_nat len <= 2 ^ 53)%Z -> plain src (rsii_new src len) rsii_step (osc_strategy_new lo hi) thr_step
| W_stoch_rsi l1 l2 k d lo hi : (2 <= l1)%nat -> (Z.of_nat l1 <= 2 ^ 53)%Z -> (1 <= l2)%nat -> (1 <= k)%nat -> (1 <= d)%nat -> plain src (srsi_new src l1 l2 k d) srsi_step (osc_strategy_new lo hi) srsi_strategy_step
| W_vortex len : (1 <= len)%nat -> plain src (vortex_new len) vortex_step cross_new cross_strategy_step
| W_williams len lo hi : (1 <= len)%nat -> plain src (wpr_new src len) wpr_step (wpr_strategy_new lo hi) thr_step.
(** and those built on averages. *)
Inductive averaged (src : any_src (F := xr)) : forall {S O T : Type}, res S -> (ctx xr -> S -> unit -> res (S * O)) -> T -> (ctx xr -> T -> O -> res (T * option direction)) -> Prop :=
| W_awesome lo hi : averaged src ao_default ao_step (osc_strategy_new lo hi) thr_step
| W_bollinger len mult lo hi : (2 <= len)%nat -> averaged src (bb_new src len (Fin mult)) bbpb_step (osc_strategy_new lo hi) thr_step
| W_cmf len lo hi : (1 <= len)%nat -> averaged src (cmf_new len) cmf_step (osc_strategy_new lo hi) thr_step
| W_cci len lo hi : (2 <= len)%nat -> averaged src (cci_new src len) cci_step (osc_strategy_new lo hi) thr_step
| W_coppock a b len lo hi : (1 <= a)%nat -> (1 <= b)%nat -> (1 <= len)%nat -> averaged src (cop_new src a b len) cop_step (osc_strategy_new lo hi) thr_step
| W_price lo hi : averaged src po_default po_step (osc_strategy_new lo hi) thr_step
| W_vigor len : (1 <= len)%nat -> averaged src (rvgi_new len) rvgi_step cross_new cross_strategy_step
| W_volume lo hi : averaged src vo_default vo_step (osc_strategy_new lo hi) thr_step.

(** The whole strategy (indicator, then signals) runs over [n] bars without a signal. *)
Definition no_signals {F} {NF : Num F} {S O T} (c : ctx F) n (new : res S) (step : ctx F -> S -> unit -> res (S * O)) (g0 : T) (g : ctx F -> T -> O -> res (T * option direction)) : Prop :=
  exists vals sigs, run_new new step c (ticks n) = Ok vals /\ run g c g0 vals = Ok sigs /\ length sigs = n /\ silent sigs.
Section Join.
  Context {F : Type} {NF : Num F} {OF : OrdNum F}.
  Lemma join_thr {S} (c : ctx F) n (new : res S) step lo hi : (exists os, run_new new step c (ticks n) = Ok os /\ length os = n /\ steady os) ->
    no_signals c n new step (osc_strategy_new lo hi) thr_step.
  Proof. intros (os & E & L & K). destruct (C118_thresholds c lo hi os K) as (sigs & E' & L' & S'). exists os, sigs. rewrite L' . auto. Qed.
  Lemma join_lines {S} (c : ctx F) n (new : res S) step : (exists os, run_new new step c (ticks n) = Ok os /\ length os = n /\ steady (map fst os) /\ steady (map snd os)) ->
    no_signals c n new step cross_new cross_strategy_step.
  Proof. intros (os & E & L & K1 & K2). destruct (C118_lines c os K1 K2) as (sigs & E' & L' & S'). exists os, sigs. rewrite L'. auto. Qed.
  Lemma join_equal {S} (c : ctx F) n (new : res S) step : (exists os, run_new new step c (ticks n) = Ok os /\ length os = n /\ Forall (fun o => fst o = snd o) os) ->
    no_signals c n new step cross_new cross_strategy_step.
  Proof. intros (os & E & L & K1). destruct (equal_silent c os K1) as (sigs & E' & L' & S'). exists os, sigs. rewrite L'. auto. Qed.
  Lemma join_dmi {S} (c : ctx F) n (new : res S) step t : (exists os, run_new new step c (ticks n) = Ok os /\ length os = n /\ Forall (fun o => fst o = snd o) (map fst os)) ->
    no_signals c n new step (dmi_strategy_new t) dmi_strategy_step.
  Proof. intros (os & E & L & K1). destruct (equal_dmi_silent c t os K1) as (sigs & E' & L' & S'). exists os, sigs. rewrite L'. auto. Qed.
  Lemma join_aroon {S} (c : ctx F) n (new : res S) step : (exists os, run_new new step c (ticks n) = Ok os /\ length os = n /\ steady (map fst os) /\ steady (map snd os)) ->
    no_signals c n new step aroons_new aroons_step.
  Proof. intros (os & E & L & K1 & K2). destruct (C118_aroon_lines c os K1 K2) as (sigs & E' & L' & S'). exists os, sigs. rewrite L'. auto. Qed.
  Lemma join_srsi {S} (c : ctx F) n (new : res S) step lo hi : (exists os, run_new new step c (ticks n) = Ok os /\ length os = n /\ steady (map fst os) /\ steady (map snd os)) ->
    no_signals c n new step (osc_strategy_new lo hi) srsi_strategy_step.
  Proof. intros (os & E & L & K1 & _). destruct (C118_stoch_rsi_lines c lo hi os K1) as (sigs & E' & L' & S'). exists os, sigs. rewrite L'. auto. Qed.
  (** What [plain] needs of the number format. *)
  Lemma plain_silent (b : bar F) n (c : ctx F) hv lv cl x u src {S O T} (new : res S) (step : ctx F -> S -> unit -> res (S * O)) (g0 : T) g :
    b_high b = Some hv -> b_low b = Some lv -> b_close b = Some cl -> fisnan hv = false -> fisnan lv = false ->
    fltb (fsub lv lv) (fsub hv hv) = false -> fltb (fsub hv hv) (fsub lv lv) = false -> fabs (fsub hv lv) = fabs (fsub lv hv) ->
    absorbs u -> (forall len i, (2 <= len)%nat -> (Z.of_nat len <= 2 ^ 53)%Z -> only u (rsi_out len (firstn (Datatypes.S i) (repeat (Some x) n)))) ->
    (forall len, (2 <= len)%nat -> exists os, run_new (cmo_new src len) cmo_step c (ticks n) = Ok os /\ length os = n /\ steady os) ->
    plain src new step g0 g -> fresh_over c (repeat b n) -> feeds c src (repeat (Some x) n) -> no_signals c n new step g0 g.
  Proof.
    intros EH EL EC N1 N2 Z1 Z2 A AB RS CM W H FE.
    assert (WR : warmed (repeat (Some x) n)) by (exists 0%nat, (repeat x n); unfold warm; rewrite map_same; reflexivity).
    assert (LN : length (repeat (Some x) n) = n) by apply repeat_length.
    destruct W as [len L B|lo hi|len lo hi L|l1 l2 l3 lo hi L1 B L2 L3|len lensig t L1 L2|len lo hi L B|l1 l2 k d lo hi L1 B L2 L3 L4|len L|len lo hi L].
    - apply join_aroon, (any_aroon b n c H hv lv EH EL len L B N1 N2).
    - apply join_thr. destruct (any_bop b n c H) as (os & E & LO & K). exists os. auto.
    - apply join_thr, CM, L.
    - apply join_thr. rewrite <- LN. apply (crsi_only u); auto.
    - apply join_dmi, (any_dmi b n c H hv lv EH EL len lensig cl); assumption.
    - apply join_thr. rewrite <- LN. apply (rsii_only u); auto.
    - apply join_srsi. rewrite <- LN. apply (srsi_only u); auto.
    - apply join_equal, (any_vortex b n c H hv lv EH EL len L A).
    - apply join_thr, (any_williams b n c H len src (Some x) L FE).
  Qed.
End Join.

Section C118.
  Local Open Scope R_scope.
  Lemma nan_absorbs_x : absorbs XNaN.
  Proof. split; [intros x; destruct x; auto|]. split; [reflexivity|]. split; [rewrite fin_Z; reflexivity|]. rewrite fin_Z. reflexivity. Qed.
  (** In exact arithmetic no strategy signals in a market that does not move:
      every bar is the bar [r], and the source gives [v] each time. *)
  Theorem C118_flat_exact (r : rbar5) n (c : ctx xr) v src {S O T} (new : res S) (step : ctx xr -> S -> unit -> res (S * O)) (g0 : T) g :
    plain src new step g0 g \/ averaged src new step g0 g -> fresh_over c (map bar_of (repeat r n)) -> feeds c src (full (repeat v n)) ->
    no_signals c n new step g0 g.
  Proof.
    intros [W|W] H FE.
    - refine (plain_silent (bar_of r) n c (Fin (rh r)) (Fin (rl r)) (Fin (rc r)) (Fin v) XNaN src new step g0 g eq_refl eq_refl eq_refl eq_refl eq_refl _ _ _ nan_absorbs_x _ _ W _ _).
      + rewrite !fin_sub, fin_lt. destruct (Rltb_spec (rl r - rl r) (rh r - rh r)); [lra|reflexivity].
      + rewrite !fin_sub, fin_lt. destruct (Rltb_spec (rh r - rh r) (rl r - rl r)); [lra|reflexivity].
      + rewrite !fin_sub, !fin_abs. f_equal. apply Rabs_minus_sym.
      + intros len i L _. pose proof (flat_rsi n v len L i) as Q. unfold full in Q. rewrite map_same in Q. exact Q.
      + intros len L. exact (flat_cmo r n c H v src FE len L).
      + rewrite map_same in H. exact H.
      + unfold full in FE. rewrite map_same in FE. exact FE.
    - destruct W as [lo hi|len m lo hi L|len lo hi L|len lo hi L|a b len lo hi L1 L2 L3|lo hi|len L|lo hi].
      + apply join_thr, (flat_ao r n c H).
      + apply join_thr, (flat_bb r n c H v src FE len m L).
      + apply join_thr, (flat_cmf r n c H len L).
      + apply join_thr, (flat_cci r n c H v src FE len L).
      + apply join_thr, (flat_coppock r n c H v src FE a b len L1 L2 L3).
      + apply join_thr, (flat_po r n c H).
      + apply join_lines, (flat_rvgi r n c H len L).
      + apply join_thr, (flat_vo r n c H).
  Qed.
  (** Macd, on its line, its signal line or their difference. *)
  Theorem C118_flat_macd (r : rbar5) n (c : ctx xr) : fresh_over c (map bar_of (repeat r n)) ->
    exists vals, run_new macd_default macd_step c (ticks n) = Ok vals /\ length vals = n /\
    forall f, In f [fst; snd; fun o => minus (fst o) (snd o)] -> exists sigs, run thr_step c macd_strategy_new (map f vals) = Ok sigs /\ length sigs = n /\ silent sigs.
  Proof.
    intros H. destruct (flat_macd r n c H) as (vals & E & L & K1 & K2 & K3). exists vals. split; [exact E|]. split; [exact L|].
    intros f I. assert (K : steady (map f vals)) by (cbn in I; destruct I as [<-|[<-|[<-|[]]]]; assumption).
    destruct (C118_thresholds c (fZ 0) (fZ 0) _ K) as (sigs & E' & L' & S'). exists sigs. rewrite map_length in L'. rewrite <- L. auto.
  Qed.
End C118.
Section C118f.
  Variable log10 : f64 -> f64.
  #[local] Instance N118f : Num f64 := IEEE log10.
  #[local] Instance O118f : OrdNum f64 := IEEEOrd log10.
  (** In f64: those built from comparisons, for any finite bar and source value. *)
  Theorem C118_flat_f64 (b : bar f64) n (c : ctx f64) hv lv cl x src {S O T} (new : res S) (step : ctx f64 -> S -> unit -> res (S * O)) (g0 : T) g :
    b_high b = Some hv -> b_low b = Some lv -> b_close b = Some cl -> is_finite hv = true -> is_finite lv = true -> is_finite x = true ->
    plain src new step g0 g -> fresh_over c (repeat b n) -> feeds c src (repeat (Some x) n) -> no_signals c n new step g0 g.
  Proof.
    intros EH EL EC F1 F2 Fx W H FE.
    refine (plain_silent b n c hv lv cl x (B754_nan : f64) src new step g0 g EH EL EC _ _ _ _ _ (nan_absorbs log10) _ _ W H FE).
    - destruct hv; try discriminate; reflexivity.
    - destruct lv; try discriminate; reflexivity.
    - apply (zero_order log10); apply (sub_self log10); assumption.
    - apply (zero_order log10); apply (sub_self log10); assumption.
    - apply (abs_sub log10); assumption.
    - intros len i L B. apply (rsi_flat64 log10); assumption.
    - intros len L. apply (cmo_flat64 log10 len c src x n L Fx FE).
  Qed.
End C118f.

(** ** Non-vacuity, and what rounding does to the averaged ones *)
Definition flat118 (n : nat) : list (bar f64) := repeat (qbar (5, 9, 2, 7, 100)%Z) n.
Definition ctx118 (bs : list (bar f64)) : ctx f64 := match ctx_over bs with Ok c => c | Panic => ctx_bare end.
Lemma ctx118_fresh bs : bs <> [] -> fresh_over (ctx118 bs) bs.
Proof. intros N. destruct (ctx_over_fresh bs N) as (c & E & H & _). unfold ctx118. rewrite E. exact H. Qed.
Example C118_holds n : fresh_over (ctx118 (flat118 (S n))) (flat118 (S n)) /\ feeds (ctx118 (flat118 (S n))) (src_box SClose) (repeat (Some (q 7)) (S n)).
Proof.
  assert (H : fresh_over (ctx118 (flat118 (S n))) (flat118 (S n))) by (apply ctx118_fresh; discriminate). split; [exact H|].
  pose proof (PContent1.src_feeds SClose _ _ H) as Q. unfold flat118 at 3 in Q. rewrite map_same in Q. apply Q. apply Forall_forall. intros b _. exact I.
Qed.
(** The price stands at 0.49 all the time, yet the default Macd line crosses zero and its strategy buys. *)
Definition flat49 (n : nat) : list (bar f64) := repeat (mkBar (Some (lit 49 100)) (Some (lit 49 100)) (Some (lit 49 100)) (Some (lit 49 100)) (Some (q 1))) n.
Example C118_macd_f64 : fresh_over (ctx118 (flat49 29)) (flat49 29) /\
  match run_new macd_default macd_step (ctx118 (flat49 29)) (ticks 29) with
  | Ok vals => match run thr_step (ctx118 (flat49 29)) macd_strategy_new (map fst vals) with
               | Ok os => os = repeat None 27 ++ [Some Long; None]
               | Panic => False end
  | Panic => False end.
Proof. split; [apply ctx118_fresh; discriminate|vm_compute; reflexivity]. Qed.
Example C118_applies n : no_signals (ctx118 (flat118 (S n))) (S n) (rsii_new (src_box SClose) 14) rsii_step (osc_strategy_new (q 30) (q 70)) thr_step.
Proof.
  destruct (C118_holds n) as [H FE].
  refine (C118_flat_f64 _ (qbar (5, 9, 2, 7, 100)%Z) (S n) _ (q 9) (q 2) (q 7) (q 7) (src_box SClose) _ _ _ _ eq_refl eq_refl eq_refl eq_refl eq_refl eq_refl _ H FE).
  apply W_rsi; [repeat constructor|lia].
Qed.
Example C118_applies_exact : exists c : ctx xr, no_signals c 30 (rsii_new (src_box SClose) 14) rsii_step (osc_strategy_new (Fin 30) (Fin 70)) thr_step.
Proof.
  destruct (ctx_over_fresh (map bar_of (repeat (mkRB 5 9 2 7 100) 30))) as (c & _ & H & _); [discriminate|]. exists c.
  assert (FE : feeds c (src_box SClose) (full (repeat 7%R 30))).
  { pose proof (PContent1.src_feeds SClose _ _ H) as Q. apply Q. apply Forall_forall. intros b _. exact I. }
  refine (C118_flat_exact (mkRB 5 9 2 7 100) 30 c 7 (src_box SClose) _ _ _ _ _ H FE). left. apply W_rsi; [repeat constructor|lia].
Qed.
