(** * PropWarm: C106, the bar from which each component reports values. *)
From Verif Require Import PTa4 PContent3 PExact3 Inst PropContent4 PropContent5 PropSafe.

(** No value before bar [w] (bars are counted from 0). *)
Definition silent_before {A} (w : nat) (os : list (option A)) : Prop :=
  forall i, i < w -> i < length os -> nth_error os i = Some None.
(** A value at bar [w] and at every later bar, none before. *)
Definition starts_at {A} (w : nat) (os : list (option A)) : Prop :=
  silent_before w os /\ forall i, w <= i -> i < length os -> exists v, nth_error os i = Some (Some v).

Section Starts.
  Context {A B : Type}.
  (** the same for functions of histories made of elements satisfying [P]. *)
  Definition fsilent (P : A -> Prop) (w : nat) (f : list A -> option B) : Prop :=
    forall h, h <> [] -> Forall P h -> length h <= w -> f h = None.
  Definition fstarts (P : A -> Prop) (w : nat) (f : list A -> option B) : Prop :=
    forall h, h <> [] -> Forall P h -> (f h <> None <-> w < length h).

  Lemma fstarts_silent P w f : fstarts P w f -> fsilent P w f.
  Proof.
    intros H h N HP L. destruct (f h) eqn:E; [|reflexivity]. exfalso.
    assert (X : f h <> None) by congruence. apply (H h N HP) in X. lia.
  Qed.
  Lemma Forall_prefix P n (h : list A) : Forall P h -> Forall P (firstn n h).
  Proof.
    intros H. apply Forall_forall. intros x Hx. rewrite Forall_forall in H. apply H.
    rewrite <- (firstn_skipn n h). apply in_or_app. left. exact Hx.
  Qed.
  Lemma prefix_nonnil {X} i (xs : list X) : i < length xs -> firstn (S i) xs <> [].
  Proof. destruct xs; cbn; [lia | discriminate]. Qed.
  Lemma silent_runs P w f xs : fsilent P w f -> Forall P xs -> silent_before w (each_prefix f xs).
  Proof.
    intros H HP i L Li. rewrite length_each_prefix in Li. rewrite nth_error_each_prefix by exact Li.
    rewrite H; [reflexivity | apply prefix_nonnil; exact Li | apply Forall_prefix; exact HP | rewrite firstn_length; lia].
  Qed.
  Lemma starts_runs P w f xs : fstarts P w f -> Forall P xs -> starts_at w (each_prefix f xs).
  Proof.
    intros H HP. split; [eapply silent_runs; [apply fstarts_silent|]; eassumption|].
    intros i L Li. rewrite length_each_prefix in Li. rewrite nth_error_each_prefix by exact Li.
    destruct (f (firstn (S i) xs)) as [v|] eqn:E; [exists v; reflexivity|]. exfalso.
    apply (proj2 (H (firstn (S i) xs) (prefix_nonnil i xs Li) (Forall_prefix P _ _ HP))); [rewrite firstn_length; lia | exact E].
  Qed.
  Lemma fsilent_le P w w' f : w' <= w -> fsilent P w f -> fsilent P w' f.
  Proof. intros L H h N HP Lh. apply H; [exact N | exact HP | lia]. Qed.
  Lemma fsilent_ext P w (f g : list A -> option B) : (forall h, f h = None -> g h = None) -> fsilent P w f -> fsilent P w g.
  Proof. intros E H h N HP L. apply E, H; assumption. Qed.
  Lemma fstarts_ext P w (f g : list A -> option B) : (forall h, h <> [] -> Forall P h -> (f h <> None <-> g h <> None)) -> fstarts P w f -> fstarts P w g.
  Proof. intros E H h N HP. rewrite <- (E h N HP). apply H; assumption. Qed.
End Starts.

Section Both.
  Context {A B C D : Type}.
  Variable P : A -> Prop.
  Lemma fsilent_max w w' (f : list A -> option B) (g : list A -> option C) (r : list A -> option D) :
    fsilent P w f -> fsilent P w' g -> (forall h, f h = None \/ g h = None -> r h = None) -> fsilent P (Nat.max w w') r.
  Proof.
    intros H H' E h N HP L. apply E. destruct (Nat.le_gt_cases (length h) w); [left; apply H; assumption|].
    right. apply H'; [exact N | exact HP | lia].
  Qed.
  Lemma fstarts_max w w' (f : list A -> option B) (g : list A -> option C) (r : list A -> option D) :
    fstarts P w f -> fstarts P w' g -> (forall h, r h <> None <-> f h <> None /\ g h <> None) -> fstarts P (Nat.max w w') r.
  Proof. intros H H' E h N HP. rewrite E, (H h N HP), (H' h N HP). lia. Qed.
End Both.

(** ** What the windowed components wait for *)
Section Waits.
  Context {A B : Type}.
  (** no result before [n] values have been seen. *)
  Definition patient (n : nat) (g : list (option A) -> option B) : Prop :=
    forall h : list (option A), length (present h) < n -> g h = None.
  (** a result as soon as [n] consecutive values have been seen. *)
  Definition ready (n : nat) (g : list (option A) -> option B) : Prop :=
    forall k vs, n <= length vs -> g (warm k vs) <> None.

  Lemma present_none (h : list (option A)) : (forall x, In x h -> x = None) -> present h = [].
  Proof. intros H. apply present_nil, Forall_forall, H. Qed.
  Lemma present_le (h : list (option A)) : length (present h) <= length h.
  Proof. induction h as [|[a|] h IH]; cbn; lia. Qed.
  Lemma present_silent {X} (P : X -> Prop) w (f : list X -> option A) h : fsilent P w f -> Forall P h ->
    length (present (each_prefix f h)) <= length h - w.
  Proof.
    intros H HP. destruct (Nat.le_gt_cases (length h) w) as [L|L].
    - rewrite present_none; [cbn; lia|]. intros x Hx. unfold each_prefix, prefixes in Hx. rewrite map_map in Hx.
      apply in_map_iff in Hx. destruct Hx as (k & <- & Hk). apply in_seq in Hk. apply H; [apply prefix_nonnil; lia | apply Forall_prefix, HP|].
      rewrite firstn_length. lia.
    - rewrite <- (firstn_skipn w h) at 1. rewrite each_prefix_app, present_app, app_length.
      rewrite present_none; [cbn [length]|].
      + etransitivity; [apply present_le|]. rewrite length_each_prefix, skipn_length. lia.
      + intros x Hx. unfold each_prefix, prefixes in Hx. rewrite map_map in Hx.
        apply in_map_iff in Hx. destruct Hx as (k & <- & Hk). apply in_seq in Hk. apply H; [apply prefix_nonnil; lia | apply Forall_prefix, Forall_prefix, HP|].
        rewrite !firstn_length in *. lia.
  Qed.
  Lemma each_starts {X} (P : X -> Prop) w (f : list X -> option A) h : fstarts P w f -> Forall P h ->
    exists vs, each_prefix f h = warm (Nat.min w (length h)) vs /\ length vs = length h - w.
  Proof.
    intros H HP. induction h as [|x h IH] using rev_ind.
    - exists []. split; [rewrite Nat.min_0_r; reflexivity | reflexivity].
    - apply Forall_app in HP as HP'. destruct HP' as [HP1 _]. destruct (IH HP1) as (vs & E & L).
      rewrite each_prefix_snoc, E. specialize (H (h ++ [x]) ltac:(destruct h; discriminate) HP). rewrite app_length in *. cbn [length] in *.
      destruct (f (h ++ [x])) as [v|] eqn:Ef.
      + assert (w < length h + 1) by (apply H; discriminate). exists (vs ++ [v]). rewrite warm_snoc, app_length. cbn [length].
        split; [|lia]. do 2 f_equal. lia.
      + destruct (Nat.le_gt_cases (length h + 1) w) as [G|G]; [|exfalso; apply (proj2 H); [lia | reflexivity]].
        assert (vs = []) by (destruct vs; [reflexivity | cbn in L; lia]). subst vs. exists [].
        rewrite <- warm_S_nil. split; [f_equal; lia | cbn; lia].
  Qed.

  Lemma silent_through {X} (P : X -> Prop) w n (f : list X -> option A) g : 1 <= n -> fsilent P w f -> patient n g ->
    fsilent P (w + n - 1) (fun h => g (each_prefix f h)).
  Proof. intros Hn H G h N HP L. apply G. pose proof (present_silent P w f h H HP). lia. Qed.
  Lemma starts_through {X} (P : X -> Prop) w n (f : list X -> option A) g : 1 <= n -> fstarts P w f -> patient n g -> ready n g ->
    fstarts P (w + n - 1) (fun h => g (each_prefix f h)).
  Proof.
    intros Hn H G R h NN HP. destruct (each_starts P w f h H HP) as (vs & E & L). split.
    - intros N. destruct (Nat.le_gt_cases (length h) (w + n - 1)) as [X0|X0]; [|exact X0]. exfalso. apply N. apply G.
      rewrite E, present_warm. lia.
    - intros Lh. rewrite E. apply R. lia.
  Qed.

  (** from the values of a full window. *)
  Lemma all_some_present (h : list (option A)) vs : all_some h = Some vs -> present h = vs.
  Proof.
    revert vs. induction h as [|[a|] h IH]; intros vs; cbn; [congruence | | discriminate].
    destruct (all_some h) as [w|]; cbn; [|discriminate]. intros E. injection E as <-. f_equal. apply IH. reflexivity.
  Qed.
  Lemma present_lastn_le n (h : list (option A)) : length (present (lastn n h)) <= length (present h).
  Proof.
    assert (E : present h = present (firstn (length h - n) h) ++ present (lastn n h)).
    { unfold lastn. rewrite <- present_app, firstn_skipn. reflexivity. }
    rewrite E, app_length. lia.
  Qed.
  Lemma lastn_present_le n (h : list (option A)) : length (present (lastn n h)) <= n.
  Proof. etransitivity; [apply present_le|]. rewrite length_lastn. lia. Qed.
  Lemma window_none n (h : list (option A)) : length (present h) < n -> window n h = None.
  Proof.
    intros L. unfold window. destruct (Nat.leb_spec n (length h)) as [G|G]; [|reflexivity].
    destruct (all_some (lastn n h)) as [vs|] eqn:E; [|reflexivity]. exfalso.
    apply all_some_present in E as E'. pose proof (present_lastn_le n h).
    rewrite E' in *.
    pose proof (all_some_length (lastn n h) vs E) as LL. rewrite length_lastn in LL. lia.
  Qed.
  Lemma lastn_warm n k (vs : list A) : n <= length vs -> lastn n (warm k vs) = map Some (lastn n vs).
  Proof.
    intros L. unfold lastn, warm. rewrite app_length, repeat_length, map_length, skipn_app, repeat_length.
    rewrite skipn_all2 by (rewrite repeat_length; lia). rewrite skipn_map. cbn [app]. do 2 f_equal. lia.
  Qed.
  Lemma length_warm k (vs : list A) : length (warm k vs) = k + length vs.
  Proof. unfold warm. rewrite app_length, repeat_length, map_length. reflexivity. Qed.
  Lemma window_warm n k (vs : list A) : n <= length vs -> window n (warm k vs) = Some (lastn n vs).
  Proof.
    intros L. unfold window. rewrite length_warm. destruct (Nat.leb_spec n (k + length vs)); [|lia].
    rewrite lastn_warm by exact L. apply all_some_map_Some.
  Qed.
  Lemma all_some_lastn_none n (h : list (option A)) : length (present h) < n -> n <= length h -> all_some (lastn n h) = None.
  Proof.
    intros L G. pose proof (window_none n h L) as W. unfold window in W. destruct (Nat.leb_spec n (length h)); [exact W | lia].
  Qed.
End Waits.

Section Components.
  Context {F : Type} {NF : Num F}.
  Local Open Scope num_scope.
  Local Notation hist := (list (option F)).
  Definition given (x : option F) : Prop := x <> None.

  Lemma warm_newest k (vs : list F) : (1 <= length vs)%nat -> join (newest (warm k vs)) <> None.
  Proof.
    intros L. destruct vs as [|v vs] using rev_ind; [cbn in L; lia|]. rewrite warm_snoc, newest_snoc. discriminate.
  Qed.
  Lemma newest_none (h : hist) : (length (present h) < 1)%nat -> join (newest h) = None.
  Proof.
    intros L. destruct h as [|x h] using rev_ind; [reflexivity|]. rewrite newest_snoc. cbn [join].
    destruct x as [v|]; [|reflexivity]. rewrite present_snoc_Some, app_length in L. cbn in L. lia.
  Qed.
  Lemma sum_patient n : patient n (sum_out (F := F) n).
  Proof. intros h L. unfold sum_out. rewrite window_none by exact L. reflexivity. Qed.
  Lemma sum_ready n : ready n (sum_out (F := F) n).
  Proof. intros k vs L. unfold sum_out. rewrite window_warm by exact L. discriminate. Qed.
  Lemma sma_patient n : (1 <= n)%nat -> patient n (sma_out (F := F) n).
  Proof.
    intros Hn h L. unfold sma_out. destruct (Nat.eqb_spec n 1) as [->|]; [apply newest_none; exact L|].
    rewrite window_none by exact L. reflexivity.
  Qed.
  Lemma sma_ready n : (1 <= n)%nat -> ready n (sma_out (F := F) n).
  Proof.
    intros Hn k vs L. unfold sma_out. destruct (Nat.eqb_spec n 1) as [->|]; [apply warm_newest; exact L|].
    rewrite window_warm by exact L. discriminate.
  Qed.
  Lemma ema_patient a n : (1 <= n)%nat -> patient n (ema_out (F := F) a n).
  Proof.
    intros Hn h L. unfold ema_out, ema_val. destruct (Nat.eqb_spec n 1) as [->|].
    - destruct (present h); [reflexivity | cbn in L; lia].
    - destruct (Nat.ltb_spec (length (present h)) n); [reflexivity | lia].
  Qed.
  Lemma ema_ready a n : (1 <= n)%nat -> ready n (ema_out (F := F) a n).
  Proof.
    intros Hn k vs L. unfold ema_out, ema_val. rewrite present_warm. destruct (Nat.eqb_spec n 1) as [->|].
    - destruct vs as [|v vs] using rev_ind; [cbn in L; lia|]. rewrite newest_snoc. discriminate.
    - destruct (Nat.ltb_spec (length vs) n); [lia | discriminate].
  Qed.
  Lemma wma_patient n : patient n (wma_out (F := F) n 0).
  Proof.
    intros h L. unfold wma_out. change (0 + length h)%nat with (length h).
    destruct (Nat.leb_spec n (length h)); [|reflexivity]. rewrite all_some_lastn_none by assumption. reflexivity.
  Qed.
  Lemma wma_ready n : ready n (wma_out (F := F) n 0).
  Proof.
    intros k vs L. unfold wma_out. rewrite length_warm. destruct (Nat.leb_spec n (0 + (k + length vs))); [|lia].
    rewrite lastn_warm, all_some_map_Some by exact L. discriminate.
  Qed.
  Lemma swma_patient : patient 4 (swma_out (F := F) 0).
  Proof.
    intros h L. unfold swma_out. change (0 + length h)%nat with (length h).
    destruct (Nat.leb_spec 4 (length h)); [|reflexivity]. rewrite all_some_lastn_none by assumption. reflexivity.
  Qed.
  Lemma swma_ready : ready 4 (swma_out (F := F) 0).
  Proof.
    intros k vs L. unfold swma_out. rewrite length_warm. destruct (Nat.leb_spec 4 (0 + (k + length vs))); [|lia].
    rewrite lastn_warm, all_some_map_Some by exact L. discriminate.
  Qed.
  Lemma ma_patient k n : (1 <= n)%nat -> patient (ma_wait k n) (ma_out (F := F) k n 0).
  Proof. intros H. destruct k; cbn [ma_wait ma_out]; [apply sma_patient | apply ema_patient | apply ema_patient | apply swma_patient]; exact H. Qed.
  Lemma ma_ready k n : (1 <= n)%nat -> ready (ma_wait k n) (ma_out (F := F) k n 0).
  Proof. intros H. destruct k; cbn [ma_wait ma_out]; [apply sma_ready | apply ema_ready | apply ema_ready | apply swma_ready]; exact H. Qed.
  Lemma best_some (cmp : F -> F -> bool) vs : best cmp vs <> None <-> vs <> [].
  Proof. destruct vs; cbn; split; congruence. Qed.

  (** Extrema skip missing values: they only wait for the first value and for [n] bars. *)
  Lemma present_lastn_starts {X} (P : X -> Prop) w n (f : list X -> option F) h : (1 <= n)%nat -> fstarts P w f -> Forall P h -> h <> [] ->
    (present (lastn n (each_prefix f h)) <> [] <-> (w < length h)%nat).
  Proof.
    intros Hn H HP NN. destruct (each_starts P w f h H HP) as (vs & E & L). rewrite E. split.
    - intros N. destruct (Nat.le_gt_cases (length h) w) as [G|G]; [|exact G]. exfalso. apply N.
      assert (vs = []) by (destruct vs; [reflexivity | cbn in L; lia]). subst vs.
      pose proof (present_lastn_le n (warm (Nat.min w (length h)) (@nil F))) as Q. rewrite present_warm in Q. cbn in Q.
      destruct (present (lastn n _)); [reflexivity | cbn in Q; lia].
    - intros G. destruct vs as [|v vs] using rev_ind; [cbn in L; lia|]. rewrite warm_snoc.
      destruct n as [|n]; [lia|]. unfold lastn. rewrite app_length. cbn [length].
      rewrite skipn_app. replace (_ - _ - _)%nat with 0%nat by lia. cbn [skipn].
      rewrite present_app. cbn [present]. intros Z. apply app_eq_nil in Z. destruct Z; discriminate.
  Qed.
  Lemma highest_starts {X} (P : X -> Prop) w n (f : list X -> option F) : (1 <= n)%nat -> fstarts P w f ->
    fstarts P (Nat.max w (n - 1)) (fun h => highest_out n 0 (each_prefix f h)).
  Proof.
    intros Hn H h NN HP. unfold highest_out. rewrite length_each_prefix. change (0 + length h)%nat with (length h).
    destruct (Nat.leb_spec n (length h)) as [G|G].
    - rewrite best_some, (present_lastn_starts P w n f h Hn H HP NN). lia.
    - split; [congruence | lia].
  Qed.
  Lemma lowest_starts {X} (P : X -> Prop) w n (f : list X -> option F) : (1 <= n)%nat -> fstarts P w f ->
    fstarts P (Nat.max w (n - 1)) (fun h => lowest_out n 0 (each_prefix f h)).
  Proof.
    intros Hn H h NN HP. unfold lowest_out. rewrite length_each_prefix. change (0 + length h)%nat with (length h).
    destruct (Nat.leb_spec n (length h)) as [G|G].
    - rewrite best_some, (present_lastn_starts P w n f h Hn H HP NN). lia.
    - split; [congruence | lia].
  Qed.

  (** The current input. *)
  Lemma self_each (h : hist) : each_prefix (fun p => join (newest p)) h = h.
  Proof.
    induction h as [|x h IH] using rev_ind; [reflexivity|]. rewrite each_prefix_snoc, IH, newest_snoc. reflexivity.
  Qed.
  Lemma self_starts : fstarts given 0 (fun p => join (newest p)).
  Proof.
    intros h N HP. destruct h as [|x h] using rev_ind; [congruence|]. rewrite newest_snoc, app_length. cbn [join length].
    apply Forall_app in HP. destruct HP as [_ HP]. inversion HP; subst. unfold given in *. split; [lia | auto].
  Qed.
  (** A column of the bars. *)
  Lemma cur_starts {X} (P : X -> Prop) (k : X -> option F) : (forall b, P b -> k b <> None) -> fstarts P 0 (cur k).
  Proof.
    intros K h N HP. destruct h as [|x h] using rev_ind; [congruence|]. rewrite cur_snoc, app_length. cbn [length].
    apply Forall_app in HP. destruct HP as [_ HP]. inversion HP; subst. split; [lia | auto].
  Qed.
  Lemma prv_starts {X} (P : X -> Prop) (k : X -> option F) : (forall b, P b -> k b <> None) -> fstarts P 1 (prv k).
  Proof.
    intros K h N HP. destruct h as [|x h] using rev_ind; [congruence|]. rewrite prv_snoc, app_length. cbn [length].
    apply Forall_app in HP. destruct HP as [HP _]. destruct h as [|y h]; [cbn; split; [congruence | lia]|].
    rewrite (cur_starts P k K (y :: h) ltac:(discriminate) HP). lia.
  Qed.
  Lemma ago1_starts : fstarts given 1 (fun p => join (ago 1 p)).
  Proof.
    intros h N HP. pose proof (prv_starts given (fun x => x) (fun b Hb => Hb) h N HP) as X.
    rewrite <- prv_ago, map_id in X. exact X.
  Qed.
End Components.

Ltac conj := repeat match goal with |- _ /\ _ => split end.

Section C106.
  Context {F : Type} {NF : Num F}.
  Local Open Scope num_scope.
  Local Notation hist := (list (option F)).
  Local Notation bars := (list (bar F)).

  Lemma given_all (vs : list F) : Forall given (map Some vs).
  Proof. apply Forall_forall. intros x Hx. apply in_map_iff in Hx. destruct Hx as (v & <- & _). discriminate. Qed.
  Lemma each_ext_in {A B} (f g : list A -> B) xs : (forall h, f h = g h) -> each_prefix f xs = each_prefix g xs.
  Proof. intros H. apply map_ext, H. Qed.

  Lemma each_prefix_each {A B C} (f : list A -> B) (g : list B -> C) h :
    each_prefix g (each_prefix f h) = each_prefix (fun p => g (each_prefix f p)) h.
  Proof.
    induction h as [|x h IH] using rev_ind; [reflexivity|]. rewrite !each_prefix_snoc, IH. reflexivity.
  Qed.

  (** *** Averages and windows over a gap-free series *)
  Lemma through_starts n (g : hist -> option F) vs : (1 <= n)%nat -> patient n g -> ready n g ->
    starts_at (n - 1) (each_prefix g (map Some vs)).
  Proof.
    intros Hn G R. apply (starts_runs given); [|apply given_all].
    pose proof (starts_through given 0 n _ g Hn self_starts G R) as X.
    intros h N HP. specialize (X h N HP). cbn beta in X. rewrite self_each in X. exact X.
  Qed.
  Theorem C106_sum n c vs os : (1 <= n)%nat -> run_new (sum_new n) sum_step c (map Some vs) = Ok os -> starts_at (n - 1) os.
  Proof.
    intros Hn E. rewrite (makes_run _ _ _ _ c _ (sum_makes (F := F) n Hn) I) in E. injection E as <-.
    apply through_starts; [exact Hn | apply sum_patient | apply sum_ready].
  Qed.
  Theorem C106_ma k n c vs os : (1 <= n)%nat -> c_index c = 0 -> run_new (ma_new k n) ma_step c (map Some vs) = Ok os ->
    starts_at (match k with SWMA => 3 | _ => n - 1 end) os.
  Proof.
    intros Hn Z E. rewrite (makes_run _ _ _ _ c _ (ma_makes (F := F) k n Hn) (warmed_map_Some vs)), Z in E. injection E as <-.
    replace (match k with SWMA => 3 | _ => n - 1 end)%nat with (ma_wait k n - 1)%nat by (destruct k; reflexivity).
    apply through_starts; [destruct k; cbn; lia | apply ma_patient; exact Hn | apply ma_ready; exact Hn].
  Qed.

  Theorem C106_averages n c vs : (1 <= n)%nat -> c_index c = 0 ->
    (forall os, run_new (sma_new n) sma_step c (map Some vs) = Ok os -> starts_at (n - 1) os) /\
    (forall os, run_new (ema_new n) ema_step c (map Some vs) = Ok os -> starts_at (n - 1) os) /\
    (forall os, run_new (rma_new n) rma_step c (map Some vs) = Ok os -> starts_at (n - 1) os) /\
    (forall os, run_new (wma_new n) wma_step c (map Some vs) = Ok os -> starts_at (n - 1) os) /\
    (forall os, run_new swma_new swma_step c (map Some vs) = Ok os -> starts_at 3 os).
  Proof.
    intros Hn Z. conj; intros os E.
    all: first [rewrite (makes_run _ _ _ _ c _ (sma_makes (F := F) n Hn) I) in E
      | rewrite (makes_run _ _ _ _ c _ (ema_makes (F := F) n Hn) (warmed_map_Some vs)) in E
      | rewrite (makes_run _ _ _ _ c _ (rma_makes (F := F) n Hn) (warmed_map_Some vs)) in E
      | rewrite (makes_run _ _ _ _ c _ (wma_makes (F := F) n Hn) I), Z in E
      | rewrite (makes_run _ _ _ _ c _ (swma_makes (F := F)) I), Z in E]; injection E as <-.
    all: try change 3%nat with (4 - 1)%nat; apply through_starts.
    all: try exact Hn; try (apply sma_patient; exact Hn); try (apply sma_ready; exact Hn); try (apply ema_patient; exact Hn); try (apply ema_ready; exact Hn);
      try apply wma_patient; try apply wma_ready; try apply swma_patient; try apply swma_ready; try lia.
  Qed.
  Theorem C106_dispersion n c vs : (1 <= n)%nat ->
    (forall os, run_new (dev_new n) dev_step c (map Some vs) = Ok os -> starts_at (n - 1) os) /\
    (forall os, run_new (stdev_new n true) stdev_step c (map Some vs) = Ok os -> starts_at (n - 1) os) /\
    (forall os, (2 <= n)%nat -> run_new (stdev_new n false) stdev_step c (map Some vs) = Ok os -> starts_at (n - 1) os).
  Proof.
    intros Hn.
    assert (W : forall h, h <> [] -> Forall given h -> (window (A := F) n h <> None <-> (n - 1 < length h)%nat)).
    { intros h N HP. destruct (Nat.le_gt_cases n (length h)) as [G|G].
      - assert (exists vs, h = map Some vs) as (ws & ->).
        { clear - HP. induction HP as [|x h Hx HP (ws & ->)]; [exists []; reflexivity|]. destruct x as [v|]; [exists (v :: ws); reflexivity | destruct (Hx eq_refl)]. }
        rewrite map_length in G. change (map Some ws) with (warm 0 ws). rewrite window_warm by exact G. rewrite length_warm. split; [lia | discriminate].
      - rewrite window_none; [split; [congruence | lia]|]. pose proof (present_le h). lia. }
    conj; intros; [rewrite (makes_run _ _ _ _ c _ (dev_makes (F := F) n Hn) I) in *
      | rewrite (makes_run _ _ _ _ c _ (stdev_makes (F := F) true n Hn) I) in * | rewrite (makes_run _ _ _ _ c _ (stdev_makes (F := F) false n Hn) I) in *].
    all: match goal with E : Ok _ = Ok _ |- _ => injection E as <- end.
    all: apply (starts_runs given); [|apply given_all].
    all: intros h N HP; rewrite <- (W h N HP); unfold dev_out, stdev_out; destruct (Nat.eqb_spec n 1) as [->|];
      try lia; try (rewrite (W h N HP); destruct h; [congruence|]; cbn; split; [lia | discriminate]);
      destruct (window n h); cbn; split; congruence.
  Qed.

  Lemma series_starts w (f : hist -> option F) vs : fstarts given w f -> starts_at w (each_prefix f (map Some vs)).
  Proof. intros H. apply (starts_runs given); [exact H | apply given_all]. Qed.
  Lemma series_silent w (f : hist -> option F) vs : fsilent given w f -> silent_before w (each_prefix f (map Some vs)).
  Proof. intros H. apply (silent_runs given); [exact H | apply given_all]. Qed.
  Lemma self_through (g : hist -> option F) w : fstarts given w (fun h => g (each_prefix (fun p => join (newest p)) h)) -> fstarts given w g.
  Proof. apply fstarts_ext. intros h _ _. rewrite self_each. reflexivity. Qed.
  Lemma self_through_silent (g : hist -> option F) w : fsilent given w (fun h => g (each_prefix (fun p => join (newest p)) h)) -> fsilent given w g.
  Proof. apply fsilent_ext. intros h. rewrite self_each. auto. Qed.
  Lemma highest_self n : (1 <= n)%nat -> fstarts given (n - 1) (highest_out (F := F) n 0).
  Proof. intros Hn. apply self_through. exact (highest_starts given 0 n _ Hn self_starts). Qed.
  Lemma lowest_self n : (1 <= n)%nat -> fstarts given (n - 1) (lowest_out (F := F) n 0).
  Proof. intros Hn. apply self_through. exact (lowest_starts given 0 n _ Hn self_starts). Qed.
  Theorem C106_extrema n c vs : (1 <= n)%nat -> c_index c = 0 ->
    (forall os, run_new (highest_new n) highest_step c (map Some vs) = Ok os -> starts_at (n - 1) os) /\
    (forall os, run_new (lowest_new n) lowest_step c (map Some vs) = Ok os -> starts_at (n - 1) os).
  Proof.
    intros Hn Z. conj; intros os E.
    - rewrite (makes_run _ _ _ _ c _ (highest_makes (F := F) n Hn) I), Z in E. injection E as <-. apply series_starts, highest_self, Hn.
    - rewrite (makes_run _ _ _ _ c _ (lowest_makes (F := F) n Hn) I), Z in E. injection E as <-. apply series_starts, lowest_self, Hn.
  Qed.

  (** the value [n] bars ago. *)
  Lemma ago_given n (h : hist) : Forall given h -> h <> [] -> (join (ago n h) <> None <-> (n < length h)%nat).
  Proof.
    intros HP N. unfold ago. destruct (Nat.ltb_spec n (length h)) as [G|G].
    - split; [auto|]. intros _. destruct (nth_error h (length h - 1 - n)) as [x|] eqn:E.
      + cbn. rewrite Forall_forall in HP. apply HP. eapply nth_error_In; exact E.
      + apply nth_error_None in E. lia.
    - cbn. split; [congruence | lia].
  Qed.
  Definition nonzero (x : option F) : Prop := exists v, x = Some v /\ (v ==? fZ 0) = false.
  Lemma nonzero_given x : nonzero x -> given x.
  Proof. intros (v & -> & _). discriminate. Qed.
  Lemma roc_silent n : fsilent given n (roc_out (F := F) n).
  Proof.
    intros h N HP L. unfold roc_out. destruct (join (ago n h)) as [v|] eqn:E; [|reflexivity]. exfalso.
    assert (X : join (ago n h) <> None) by congruence. apply ago_given in X; [lia | assumption..].
  Qed.
  Lemma change_silent n : fsilent given n (change_out (F := F) n).
  Proof.
    intros h N HP L. unfold change_out. destruct (join (ago n h)) as [v|] eqn:E; [|reflexivity]. exfalso.
    assert (X : join (ago n h) <> None) by congruence. apply ago_given in X; [lia | assumption..].
  Qed.
  Lemma ago_nonzero n h v : Forall nonzero h -> join (ago n h) = Some v -> (v ==? fZ 0) = false.
  Proof.
    intros HP E. unfold ago in E. destruct (n <? length h)%nat; [|discriminate].
    destruct (nth_error h (length h - 1 - n)) as [x|] eqn:Ex; [|discriminate]. cbn in E. subst x.
    apply nth_error_In in Ex. rewrite Forall_forall in HP. destruct (HP _ Ex) as (w & Ew & Z). congruence.
  Qed.
  Lemma newest_given (h : hist) : Forall given h -> h <> [] -> join (newest h) <> None.
  Proof. intros HP N. apply (self_starts h N HP). destruct h; [congruence | cbn; lia]. Qed.
  Lemma roc_starts n : fstarts nonzero n (roc_out (F := F) n).
  Proof.
    intros h N HP. assert (HG : Forall given h) by (eapply Forall_impl; [|exact HP]; intros x; apply nonzero_given).
    rewrite <- (ago_given n h HG N). unfold roc_out. pose proof (newest_given h HG N) as NG.
    destruct (join (ago n h)) as [v|] eqn:E; [|split; congruence].
    destruct (join (newest h)) as [x|]; [|congruence]. rewrite (ago_nonzero n h v HP E). split; discriminate.
  Qed.
  Lemma change_starts n : fstarts nonzero n (change_out (F := F) n).
  Proof.
    intros h N HP. assert (HG : Forall given h) by (eapply Forall_impl; [|exact HP]; intros x; apply nonzero_given).
    rewrite <- (ago_given n h HG N). unfold change_out. pose proof (newest_given h HG N) as NG.
    destruct (join (ago n h)) as [v|] eqn:E; [|split; congruence].
    destruct (join (newest h)) as [x|]; [|congruence]. rewrite (ago_nonzero n h v HP E). split; discriminate.
  Qed.
  Theorem C106_changes n c vs : (1 <= n)%nat ->
    (forall os, run_new (change_new n) change_step c (map Some vs) = Ok os ->
       silent_before n os /\ (Forall (fun v => (v ==? fZ 0) = false) vs -> starts_at n os)) /\
    (forall os, run_new (roc_new n) roc_step c (map Some vs) = Ok os ->
       silent_before n os /\ (Forall (fun v => (v ==? fZ 0) = false) vs -> starts_at n os)).
  Proof.
    intros Hn.
    assert (NZ : Forall (fun v => (v ==? fZ 0) = false) vs -> Forall nonzero (map Some vs)).
    { intros H. apply Forall_forall. intros x Hx. apply in_map_iff in Hx. destruct Hx as (v & <- & Hv). exists v. split; [reflexivity|].
      rewrite Forall_forall in H. apply H, Hv. }
    split; intros os E.
    - rewrite (makes_run _ _ _ _ c _ (change_makes (F := F) n Hn) I) in E. injection E as <-. split; [apply series_silent, change_silent|].
      intros H. apply (starts_runs nonzero); [apply change_starts | apply NZ, H].
    - rewrite (makes_run _ _ _ _ c _ (roc_makes (F := F) n Hn) I) in E. injection E as <-. split; [apply series_silent, roc_silent|].
      intros H. apply (starts_runs nonzero); [apply roc_starts | apply NZ, H].
  Qed.

  (** RSI needs [n] changes. *)
  Lemma rsi_starts {X} (P : X -> Prop) w n (f : list X -> option F) : (1 <= n)%nat -> fstarts P w f ->
    fstarts P (w + n) (fun h => rsi_out n (each_prefix f h)).
  Proof.
    intros Hn H.
    assert (G : forall (d : option F -> option F -> option F), (forall a b, d a b <> None <-> a <> None /\ b <> None) ->
      fstarts P (w + 1) (fun h => d (join (ago 1 (each_prefix f h))) (join (newest (each_prefix f h))))).
    { intros d D h N HP. rewrite D. destruct (each_starts P w f h H HP) as (vs & E & L).
      pose proof (H h N HP) as Hh. destruct h as [|x h _] using rev_ind; [congruence|]. 
      rewrite each_prefix_snoc, newest_snoc in *. cbn [join]. rewrite Hh, app_length. cbn [length].
      rewrite ago_S_snoc. destruct h as [|y h _] using rev_ind; [cbn; split; [intros [[] _]; reflexivity | lia]|].
      rewrite each_prefix_snoc, ago_0_snoc, app_length. cbn [length join].
      assert (HP' : Forall P (h ++ [y])) by (apply Forall_app in HP; apply HP).
      rewrite (H (h ++ [y]) ltac:(destruct h; discriminate) HP'), app_length. cbn [length]. lia. }
    assert (GU := G rsi_gain ltac:(intros [a|] [b|]; cbn; split; [intros _; split; discriminate | discriminate | congruence | intros [A0 B0]; congruence | congruence | intros [A0 B0]; congruence | congruence | intros [A0 B0]; congruence])).
    assert (GD := G rsi_loss ltac:(intros [a|] [b|]; cbn; split; [intros _; split; discriminate | discriminate | congruence | intros [A0 B0]; congruence | congruence | intros [A0 B0]; congruence | congruence | intros [A0 B0]; congruence])).
    pose proof (starts_through P (w + 1) n _ _ Hn GU (ema_patient (rma_alpha_of n) n Hn) (ema_ready _ n Hn)) as XU.
    pose proof (starts_through P (w + 1) n _ _ Hn GD (ema_patient (rma_alpha_of n) n Hn) (ema_ready _ n Hn)) as XD.
    intros h N HP. specialize (XU h N HP). specialize (XD h N HP). cbn beta in *.
    unfold rsi_out. 
    assert (EE : forall d, each_prefix (fun h0 => d (join (ago 1 (each_prefix f h0))) (join (newest (each_prefix f h0)))) h =
       each_prefix (fun p : hist => (d (join (ago 1 p)) (join (newest p)) : option F)) (each_prefix f h)).
    { intros d. rewrite each_prefix_each. reflexivity. }
    rewrite EE in XU, XD. fold (gains (each_prefix f h)) in XU. fold (losses (each_prefix f h)) in XD.
    replace (w + 1 + n - 1)%nat with (w + n)%nat in XU, XD by lia.
    destruct (ema_out (rma_alpha_of n) n (gains (each_prefix f h))) as [u|];
    destruct (ema_out (rma_alpha_of n) n (losses (each_prefix f h))) as [d|]; cbn [rsi_val].
    - rewrite <- XU. split; discriminate.
    - exact XD.
    - exact XU.
    - exact XU.
  Qed.
  Lemma rsi_self n : (1 <= n)%nat -> fstarts given n (rsi_out (F := F) n).
  Proof. intros Hn. apply self_through. exact (rsi_starts given 0 n _ Hn self_starts). Qed.
  Theorem C106_rsi n c vs os : (2 <= n)%nat -> run_new (rsi_new n) rsi_step c (map Some vs) = Ok os -> starts_at n os.
  Proof.
    intros Hn E. rewrite (makes_run _ _ _ _ c _ (rsi_makes (F := F) n Hn) (warmed_map_Some vs)) in E. injection E as <-.
    apply series_starts, rsi_self. lia.
  Qed.

  Theorem C106_prank n c vs os : (1 <= n)%nat -> c_index c = 0 -> run_new (prank_new n) prank_step c (map Some vs) = Ok os -> starts_at n os.
  Proof.
    intros Hn Z E. rewrite (makes_run _ _ _ _ c _ (prank_makes (F := F) n Hn) I), Z in E. injection E as <-.
    apply series_starts. intros h N HP. unfold prank_out. pose proof (newest_given h HP N).
    destruct (join (newest h)) as [v|]; [|congruence]. change (0 + length h)%nat with (length h).
    destruct (Nat.ltb_spec n (length h)); split; [lia | discriminate | congruence | lia].
  Qed.

  (** *** Components driven by complete bars *)
  Lemma bars_starts {A} w (f : bars -> option A) bs : fstarts complete w f -> Forall complete bs -> starts_at w (each_prefix f bs).
  Proof. intros H HC. exact (starts_runs complete w f bs H HC). Qed.
  Lemma bars_silent {A} w (f : bars -> option A) bs : fsilent complete w f -> Forall complete bs -> silent_before w (each_prefix f bs).
  Proof. intros H HC. exact (silent_runs complete w f bs H HC). Qed.
  Lemma col_through {A} (k : bar F -> option F) w (g : hist -> option A) :
    fstarts complete w (fun h => g (each_prefix (cur k) h)) -> fstarts complete w (fun h => g (map k h)).
  Proof. apply fstarts_ext. intros h _ _. rewrite each_prefix_cur. reflexivity. Qed.
  Lemma c_open : forall b : bar F, complete b -> b_open b <> None. Proof. intros b H. apply H. Qed.
  Lemma c_high : forall b : bar F, complete b -> b_high b <> None. Proof. intros b H. apply H. Qed.
  Lemma c_low : forall b : bar F, complete b -> b_low b <> None. Proof. intros b H. apply H. Qed.
  Lemma c_close : forall b : bar F, complete b -> b_close b <> None. Proof. intros b H. apply H. Qed.
  Lemma c_volume : forall b : bar F, complete b -> b_volume b <> None. Proof. intros b H. apply H. Qed.

  Lemma tr_starts (na : bool) : fstarts complete (if na then 0 else 1)%nat (tr_out (F := F) na).
  Proof.
    intros h N HP.
    pose proof (cur_starts complete b_high c_high h N HP) as H1. pose proof (cur_starts complete b_low c_low h N HP) as H2.
    pose proof (prv_starts complete b_high c_high h N HP) as H3. pose proof (prv_starts complete b_low c_low h N HP) as H4.
    pose proof (prv_starts complete b_close c_close h N HP) as H5.
    assert (L : (0 < length h)%nat) by (destruct h; [congruence | cbn; lia]).
    unfold tr_out. destruct (cur b_high h); [|exfalso; apply (proj2 H1 L); reflexivity]. destruct (cur b_low h); [|exfalso; apply (proj2 H2 L); reflexivity].
    unfold true_range. destruct (prv b_high h), (prv b_low h), (prv b_close h); destruct na;
      try (rewrite <- H3; split; discriminate); try (split; [lia | discriminate]); try exact H3; try exact H4; try exact H5.
  Qed.
  Lemma atr_starts n : (1 <= n)%nat -> fstarts complete (n - 1) (atr_out (F := F) n).
  Proof. intros Hn. exact (starts_through complete 0 n _ _ Hn (tr_starts true) (ema_patient _ n Hn) (ema_ready _ n Hn)). Qed.
  Theorem C106_true_range (na : bool) c bs os : fresh_over c bs -> Forall complete bs ->
    run tr_step c na (ticks (length bs)) = Ok os -> starts_at (if na then 0 else 1) os.
  Proof.
    intros FO HC E. rewrite tr_run in E; [|exact FO | apply complete_hl, HC]. injection E as <-. apply bars_starts; [apply tr_starts | exact HC].
  Qed.
  Theorem C106_atr n c bs os : (1 <= n)%nat -> fresh_over c bs -> Forall complete bs ->
    run_new (atr_new n) atr_step c (ticks (length bs)) = Ok os -> starts_at (n - 1) os.
  Proof.
    intros Hn FO HC E. destruct (atr_run n c bs Hn FO (complete_hl bs HC)) as (s & Es & R). unfold run_new in E. rewrite Es in E. cbn [rbind] in E.
    rewrite R in E. injection E as <-.
    apply bars_starts; [apply atr_starts, Hn | exact HC].
  Qed.
  Lemma bars_out_starts cmp (k : bar F -> option F) n : (1 <= n)%nat -> fstarts complete (n - 1) (fun h => bars_out cmp n (map k h)).
  Proof.
    intros Hn h N HP. unfold bars_out. rewrite map_length. destruct (Nat.leb_spec n (length h)); split; [lia | discriminate | congruence | lia].
  Qed.
  Lemma each_prefix_fst {A B C} (f : list A -> B * C) xs : map fst (each_prefix f xs) = each_prefix (fun h => fst (f h)) xs.
  Proof. rewrite each_prefix_map. reflexivity. Qed.
  Lemma each_prefix_snd {A B C} (f : list A -> B * C) xs : map snd (each_prefix f xs) = each_prefix (fun h => snd (f h)) xs.
  Proof. rewrite each_prefix_map. reflexivity. Qed.
  Lemma option_map_some {A B} (g : A -> B) o : option_map g o <> None <-> o <> None.
  Proof. destruct o; cbn; split; congruence. Qed.
  Theorem C106_extreme_bars n c bs : (1 <= n)%nat -> (Z.of_nat n <= 2 ^ 31)%Z -> fresh_over c bs -> Forall complete bs ->
    (forall os, run_new (highest_bars_new n) highest_bars_step c (ticks (length bs)) = Ok os -> starts_at (n - 1) os) /\
    (forall os, run_new (lowest_bars_new n) lowest_bars_step c (ticks (length bs)) = Ok os -> starts_at (n - 1) os) /\
    (forall os, run_new (aroon_new n) aroon_step c (ticks (length bs)) = Ok os ->
       starts_at (n - 1) (map fst os) /\ starts_at (n - 1) (map snd os)).
  Proof.
    intros Hn H31 FO HC. conj; intros os E.
    - unfold run_new, highest_bars_new, assertb in E. destruct (Nat.leb_spec 1 n); [|lia]. cbn [rbind] in E. rewrite highest_bars_run in E by assumption. injection E as <-. apply bars_starts; [apply bars_out_starts, Hn | exact HC].
    - unfold run_new, lowest_bars_new, assertb in E. destruct (Nat.leb_spec 1 n); [|lia]. cbn [rbind] in E. rewrite lowest_bars_run in E by assumption. injection E as <-. apply bars_starts; [apply bars_out_starts, Hn | exact HC].
    - rewrite aroon_run in E by assumption. injection E as <-. rewrite each_prefix_fst, each_prefix_snd.
      split; (apply bars_starts; [|exact HC]); intros h N HP; unfold aroon_out; cbn [fst snd]; rewrite option_map_some; apply bars_out_starts; assumption.
  Qed.

  (** *** Indicators *)
  Lemma hi_starts n : (1 <= n)%nat -> fstarts complete (n - 1) (fun h : bars => highest_out n 0 (map b_high h)).
  Proof. intros Hn. apply (col_through b_high). exact (highest_starts complete 0 n _ Hn (cur_starts complete b_high c_high)). Qed.
  Lemma lo_starts n : (1 <= n)%nat -> fstarts complete (n - 1) (fun h : bars => lowest_out n 0 (map b_low h)).
  Proof. intros Hn. apply (col_through b_low). exact (lowest_starts complete 0 n _ Hn (cur_starts complete b_low c_low)). Qed.

  Theorem C106_donchian n c bs os : (1 <= n)%nat -> fresh_over c bs -> Forall complete bs ->
    run_new (don_new n) don_step c (ticks (length bs)) = Ok os ->
    starts_at (n - 1) (map (fun o => fst (fst o)) os) /\ starts_at (n - 1) (map (fun o => snd (fst o)) os) /\ starts_at (n - 1) (map snd os).
  Proof.
    intros Hn FO HC E. rewrite don_run in E by assumption. injection E as <-. rewrite !each_prefix_map. conj; apply bars_starts; try exact HC; unfold don_out; cbn [fst snd].
    - apply hi_starts, Hn.
    - rewrite <- (Nat.max_id (n - 1)). eapply fstarts_max; [apply hi_starts, Hn | apply lo_starts, Hn|].
      intros h. cbn beta. unfold don_basis, ps_add. destruct (highest_out n 0 (map b_high h)), (lowest_out n 0 (map b_low h)); cbn; split; try (intros [X Y]); try congruence.
      intros _. split; discriminate.
    - apply lo_starts, Hn.
  Qed.
  Theorem C106_williams k n c bs os : (1 <= n)%nat -> fresh_over c bs -> Forall complete bs ->
    run_new (wpr_new (src_box k) n) wpr_step c (ticks (length bs)) = Ok os -> silent_before (n - 1) os.
  Proof.
    intros Hn FO HC E. destruct (source_values k c bs FO HC) as (vs & FE & EV & LE).
    pose proof (wpr_run n c (src_box k) (map (fun b => (src_of k b, b)) bs) Hn) as R.
    rewrite !map_map in R. cbn [fst snd] in R. rewrite map_id, map_length in R.
    change (map (fun b => src_of k b) bs) with (map (src_of k) bs) in R. rewrite EV in R. rewrite (R FE FO) in E. injection E as <-.
    intros i L Li. rewrite length_each_prefix in Li. rewrite nth_error_each_prefix by exact Li. rewrite map_length in Li.
    rewrite firstn_map. unfold wpr_out. rewrite !map_map. cbn [snd].
    pose proof (fstarts_silent _ _ _ (hi_starts n Hn) (firstn (S i) bs) (prefix_nonnil i bs Li) (Forall_prefix _ _ _ HC) ltac:(rewrite firstn_length; lia)) as X.
    cbn beta in X. change (fun x : bar F => b_high x) with (@b_high F). rewrite X. unfold wpr_value, ps_diff. destruct (cur fst _); reflexivity.
  Qed.
  Theorem C106_choppiness n c bs os : (1 <= n)%nat -> fresh_over c bs -> Forall complete bs ->
    run_new (chop_new n) chop_step c (ticks (length bs)) = Ok os -> silent_before (n - 1) os.
  Proof.
    intros Hn FO HC E. rewrite chop_run in E; [|assumption..|apply complete_hl, HC]. injection E as <-. apply bars_silent; [|exact HC].
    apply (fsilent_ext complete (n - 1) (fun h => highest_out n 0 (map b_high h))); [|apply fstarts_silent, hi_starts, Hn].
    intros h X. unfold chop_out. rewrite X. unfold chop_value. destruct (sum_out n _); reflexivity.
  Qed.
  Lemma col_starts (k : bar F -> option F) n (g : hist -> option F) : (forall b, complete b -> k b <> None) -> (1 <= n)%nat -> patient n g -> ready n g ->
    fstarts complete (n - 1) (fun h => g (map k h)).
  Proof. intros K Hn G R. apply col_through. exact (starts_through complete 0 n _ g Hn (cur_starts complete k K) G R). Qed.
  Theorem C106_money_flow n c bs os : (1 <= n)%nat -> fresh_over c bs -> Forall complete bs ->
    run_new (cmf_new n) cmf_step c (ticks (length bs)) = Ok os -> silent_before (n - 1) os.
  Proof.
    intros Hn FO HC E. rewrite cmf_run in E by assumption. injection E as <-. apply bars_silent; [|exact HC].
    eapply fsilent_ext; [|apply fstarts_silent, (col_starts b_volume n (sum_out n) c_volume Hn (sum_patient n) (sum_ready n))].
    intros h X. cbn beta in X. unfold cmf_out. rewrite X. unfold ps_div. destruct (sum_out n (map cmf_flow h)); reflexivity.
  Qed.

  (** The Chande-Kroll stops: the final stops are extrema of the preliminary
      ones and are reported as soon as there is one preliminary stop and [q] bars. *)
  Theorem C106_stops p q x c bs os : (1 <= p)%nat -> (1 <= q)%nat -> fresh_over c bs -> Forall complete bs ->
    run_new (cks_new p q x) cks_step c (ticks (length bs)) = Ok os ->
    starts_at (p - 1) (map (fun o => fst (fst (fst o))) os) /\ starts_at (p - 1) (map (fun o => snd (fst (fst o))) os) /\
    starts_at (Nat.max p q - 1) (map (fun o => snd (fst o)) os) /\ starts_at (Nat.max p q - 1) (map snd os).
  Proof.
    intros Hp Hq FO HC E. rewrite cks_run in E; [|assumption..|apply complete_hl, HC]. injection E as <-. rewrite !each_prefix_map.
    assert (B : forall h : bars, h <> [] -> Forall complete h ->
       (fst (cks_first_out p x h) <> None <-> (p - 1 < length h)%nat) /\ (snd (cks_first_out p x h) <> None <-> (p - 1 < length h)%nat)).
    { intros h N HP. pose proof (hi_starts p Hp h N HP) as H1. pose proof (lo_starts p Hp h N HP) as H2. pose proof (atr_starts p Hp h N HP) as H3. cbn beta in *.
      unfold cks_first_out, cks_first.
      destruct (highest_out p 0 (map b_high h)); [|split; exact H1]. destruct (lowest_out p 0 (map b_low h)); [|split; exact H2].
      destruct (atr_out p h); [|split; exact H3]. cbn [fst snd]. split; rewrite <- H1; split; discriminate. }
    assert (B1 : fstarts complete (p - 1) (fun h : bars => fst (cks_first_out p x h))) by (intros h N HP; apply (B h N HP)).
    assert (B2 : fstarts complete (p - 1) (fun h : bars => snd (cks_first_out p x h))) by (intros h N HP; apply (B h N HP)).
    unfold cks_out. cbn [fst snd]. replace (Nat.max p q - 1)%nat with (Nat.max (p - 1) (q - 1)) by lia.
    conj; apply bars_starts; try exact HC; [exact B1 | exact B2 | exact (lowest_starts complete _ q _ Hq B2) | exact (highest_starts complete _ q _ Hq B1)].
  Qed.

  (** *** Indicators of a source that has a value at every bar *)
  Theorem C106_bollinger n x c src vs : (1 <= n)%nat -> feeds c src (map Some vs) ->
    (forall os, run_new (bb_new src n x) bbpb_step c (ticks (length vs)) = Ok os -> silent_before (n - 1) os) /\
    (forall os, run_new (bb_new src n x) bbw_step c (ticks (length vs)) = Ok os -> silent_before (n - 1) os).
  Proof.
    intros Hn FE. destruct (bb_run n x c src _ Hn FE) as [R1 R2]. rewrite map_length in R1, R2.
    assert (X : fsilent given (n - 1) (sma_out (F := F) n)).
    { apply self_through_silent. exact (silent_through given 0 n _ _ Hn (fstarts_silent _ _ _ self_starts) (sma_patient n Hn)). }
    conj; intros os E; [rewrite R1 in E | rewrite R2 in E]; injection E as <-; apply series_silent; (eapply fsilent_ext; [|exact X]);
      intros h Hh; unfold bbpb_out, bbw_out; rewrite Hh; unfold bbpb_value, bbw_value; destruct (join (newest h)); reflexivity.
  Qed.
  Theorem C106_cci n c src vs os : (1 <= n)%nat -> feeds c src (map Some vs) ->
    run_new (cci_new src n) cci_step c (ticks (length vs)) = Ok os -> silent_before (n - 1) os.
  Proof.
    intros Hn FE E. pose proof (cci_run n c src _ Hn FE) as R. rewrite map_length in R. rewrite R in E. injection E as <-.
    apply series_silent. eapply fsilent_ext with (f := sma_out n).
    - intros h Hh. unfold cci_out. rewrite Hh. unfold cci_value, ps_diff. destruct (join (newest h)); reflexivity.
    - apply self_through_silent. exact (silent_through given 0 n _ _ Hn (fstarts_silent _ _ _ self_starts) (sma_patient n Hn)).
  Qed.
  Lemma momentum_starts : fstarts given 1 (momentum (F := F)).
  Proof.
    change 1%nat with (Nat.max 0 1). eapply fstarts_max; [apply self_starts | apply ago1_starts|].
    intros h. unfold momentum, ps_diff. destruct (join (newest h)), (join (ago 1 h)); split; try (intros [X Y]); try congruence. intros _. split; discriminate.
  Qed.
  Theorem C106_momentum n c src vs os : (2 <= n)%nat -> feeds c src (map Some vs) ->
    run_new (cmo_new src n) cmo_step c (ticks (length vs)) = Ok os -> silent_before n os.
  Proof.
    intros Hn FE E. pose proof (cmo_run n c src _ Hn FE) as R. rewrite map_length in R. rewrite R in E. injection E as <-.
    apply series_silent.
    assert (U : fsilent given 1 (fun p : hist => cmo_up (momentum p))).
    { eapply fsilent_ext; [|apply fstarts_silent, momentum_starts]. intros h Hh. rewrite Hh. reflexivity. }
    pose proof (silent_through given 1 n _ _ ltac:(lia) U (sum_patient n)) as X. replace (1 + n - 1)%nat with n in X by lia.
    eapply fsilent_ext; [|exact X]. intros h Hh. cbn beta in Hh. unfold cmo_out. rewrite Hh. reflexivity.
  Qed.
  Theorem C106_rsi_indicator n c src vs os : (2 <= n)%nat -> feeds c src (map Some vs) ->
    run_new (rsii_new src n) rsii_step c (ticks (length vs)) = Ok os -> starts_at n os.
  Proof.
    intros Hn FE E. pose proof (rsii_run n c src _ Hn FE (warmed_map_Some vs)) as R. rewrite map_length in R. rewrite R in E. injection E as <-.
    apply series_starts, rsi_self. lia.
  Qed.
  Lemma ud_starts : fstarts given 0 (ud_out (F := F)).
  Proof.
    intros h N HP. destruct h as [|x h] using rev_ind; [congruence|]. unfold ud_out, ud_state. rewrite fold_left_app. cbn [fold_left].
    destruct (fold_left _ h (None, None)) as [pr ud]. cbn [snd]. rewrite app_length. cbn [length]. split; [lia|]. intros _.
    unfold compute_up_down. destruct (feqb_opt pr x); [discriminate|]. cbn zeta.
    destruct (match x with Some _ => _ | None => _ end); [destruct (_ <=? _); discriminate|]. destruct (fgeb _ _); discriminate.
  Qed.
  Theorem C106_connors a b d c src vs os : (2 <= a)%nat -> (2 <= b)%nat -> (1 <= d)%nat -> c_index c = 0 -> feeds c src (map Some vs) ->
    run_new (crsi_new src a b d) crsi_step c (ticks (length vs)) = Ok os ->
    silent_before (Nat.max (Nat.max a b) d) os /\ (Forall (fun v => (v ==? fZ 0) = false) vs -> starts_at (Nat.max (Nat.max a b) d) os).
  Proof.
    intros Ha Hb Hd Z FE E. pose proof (crsi_run a b d c src _ Ha Hb Hd FE (warmed_map_Some vs)) as R. rewrite map_length, Z in R. rewrite R in E. injection E as <-.
    pose proof (rsi_self a ltac:(lia)) as X1. pose proof (rsi_starts given 0 b _ ltac:(lia) ud_starts) as X2. cbn [Nat.add] in X2.
    assert (X3 : fsilent given d (fun h => prank_out d 0 (each_prefix (roc_out 1) h))).
    { intros h N HP L. unfold prank_out. rewrite length_each_prefix. destruct (join (newest (each_prefix (roc_out 1) h))); [|reflexivity].
      destruct (Nat.ltb_spec d (0 + length h)); [lia | reflexivity]. }
    split.
    - apply series_silent.
      assert (X12 : fsilent given (Nat.max a b) (fun h : hist => match rsi_out a h, rsi_out b (each_prefix ud_out h) with Some x, Some y => Some x | _, _ => None end)).
      { eapply fsilent_max; [apply fstarts_silent, X1 | apply fstarts_silent, X2|].
        intros h Hh. cbn beta in *. destruct Hh as [->| ->]; [reflexivity|]. destruct (rsi_out a h); reflexivity. }
      eapply fsilent_max; [exact X12 | exact X3|].
      intros h Hh. cbn beta in *. unfold crsi_out, crsi_value. destruct (rsi_out a h), (rsi_out b (each_prefix ud_out h)), (prank_out d 0 (each_prefix (roc_out 1) h)); try reflexivity. destruct Hh; discriminate.
    - intros NZ. apply (starts_runs nonzero).
      2:{ apply Forall_forall. intros y Hy. apply in_map_iff in Hy. destruct Hy as (v & <- & Hv). exists v. split; [reflexivity|].
          rewrite Forall_forall in NZ. apply NZ, Hv. }
      intros h N HP. assert (HG : Forall given h) by (eapply Forall_impl; [|exact HP]; intros y; apply nonzero_given).
      specialize (X1 h N HG). specialize (X2 h N HG). cbn beta in X1, X2.
      assert (X4 : prank_out d 0 (each_prefix (roc_out 1) h) <> None <-> (d < length h)%nat).
      { unfold prank_out. rewrite length_each_prefix. pose proof (roc_starts 1 h N HP) as RS.
        assert (EN : join (newest (each_prefix (roc_out 1) h)) = roc_out 1 h).
        { destruct h as [|y h _] using rev_ind; [congruence|]. rewrite each_prefix_snoc, newest_snoc. reflexivity. }
        rewrite EN. change (0 + length h)%nat with (length h). destruct (roc_out 1 h); [|split; [congruence | intros; apply RS; lia]].
        destruct (Nat.ltb_spec d (length h)); split; [lia | discriminate | congruence | lia]. }
      unfold crsi_out, crsi_value. destruct (rsi_out a h), (rsi_out b (each_prefix ud_out h)), (prank_out d 0 (each_prefix (roc_out 1) h)); split; intros Q; try congruence; try discriminate; try lia;
        first [exfalso; apply (proj2 X1); [lia | reflexivity] | exfalso; apply (proj2 X2); [lia | reflexivity] | exfalso; apply (proj2 X4); [lia | reflexivity]
          | assert (P1 := proj1 X1 ltac:(discriminate)); assert (P2 := proj1 X2 ltac:(discriminate)); assert (P4 := proj1 X4 ltac:(discriminate)); lia].
  Qed.

  Theorem C106_coppock long short n c src vs os : (1 <= long)%nat -> (1 <= short)%nat -> (1 <= n)%nat -> c_index c = 0 -> feeds c src (map Some vs) ->
    run_new (cop_new src long short n) cop_step c (ticks (length vs)) = Ok os ->
    silent_before (Nat.max long short + n - 1) os /\ (Forall (fun v => (v ==? fZ 0) = false) vs -> starts_at (Nat.max long short + n - 1) os).
  Proof.
    intros Hl Hs Hn Z FE E. pose proof (cop_run long short n c src _ Hl Hs Hn FE) as R. rewrite map_length, Z in R. rewrite R in E. injection E as <-.
    split.
    - apply series_silent. refine (silent_through given _ n _ _ Hn _ (wma_patient n)).
      eapply fsilent_max; [apply (roc_silent long) | apply (roc_silent short)|]. intros h Hh. unfold cop_roc.
      destruct (roc_out long h), (roc_out short h); try reflexivity. destruct Hh; discriminate.
    - intros NZ. apply (starts_runs nonzero).
      2:{ apply Forall_forall. intros y Hy. apply in_map_iff in Hy. destruct Hy as (v & <- & Hv). exists v. split; [reflexivity|].
          rewrite Forall_forall in NZ. apply NZ, Hv. }
      refine (starts_through nonzero _ n _ _ Hn _ (wma_patient n) (wma_ready n)).
      eapply fstarts_max; [apply (roc_starts long) | apply (roc_starts short)|]. intros h. unfold cop_roc.
      destruct (roc_out long h), (roc_out short h); split; try (intros [X Y]); try congruence. intros _. split; discriminate.
  Qed.

  (** Stochastic RSI: the stochastic uses the extrema of the RSI values seen so
      far, so it does not wait for [b] of them. *)
  Lemma stoch_silent {X} (P : X -> Prop) w n (f : list X -> option F) : (1 <= n)%nat -> fsilent P w f ->
    fsilent P (Nat.max w (n - 1)) (fun h => stoch_out n 0 (each_prefix (fun p => (f p, f p, f p)) h)).
  Proof.
    intros Hn H h N HP L. destruct (Nat.le_gt_cases (length h) (n - 1)) as [G|G].
    - apply stoch_out_early. rewrite length_each_prefix. lia.
    - destruct h as [|x h _] using rev_ind; [congruence|]. rewrite each_prefix_snoc, stoch_out_snoc.
      rewrite (H (h ++ [x]) N HP) by lia. destruct (Nat.leb n _); reflexivity.
  Qed.
  Theorem C106_stoch_rsi a b k d c src vs os : (2 <= a)%nat -> (1 <= b)%nat -> (1 <= k)%nat -> (1 <= d)%nat -> c_index c = 0 -> feeds c src (map Some vs) ->
    run_new (srsi_new src a b k d) srsi_step c (ticks (length vs)) = Ok os ->
    silent_before (Nat.max a (b - 1) + k - 1) (map fst os) /\ silent_before (Nat.max a (b - 1) + k + d - 2) (map snd os).
  Proof.
    intros Ha Hb Hk Hd Z FE E. pose proof (srsi_run a b k d c src _ Ha Hb Hk Hd FE (warmed_map_Some vs)) as R. rewrite map_length, Z in R. rewrite R in E. injection E as <-.
    rewrite each_prefix_fst, each_prefix_snd. unfold srsi_out. cbn [fst snd].
    pose proof (stoch_silent given a b _ Hb (fstarts_silent _ _ _ (rsi_self a ltac:(lia)))) as X.
    pose proof (silent_through given _ k _ _ Hk X (sma_patient k Hk)) as Y.
    pose proof (silent_through given _ d _ _ Hd Y (sma_patient d Hd)) as W.
    split; apply series_silent; [exact Y|]. replace (Nat.max a (b - 1) + k + d - 2)%nat with (Nat.max a (b - 1) + k - 1 + d - 1)%nat by lia. exact W.
  Qed.

  Lemma diff_starts {X} (P : X -> Prop) w w' (f g : list X -> option F) : fstarts P w f -> fstarts P w' g ->
    fstarts P (Nat.max w w') (fun h => ps_diff (f h) (g h)).
  Proof.
    intros H H'. eapply fstarts_max; [exact H | exact H'|]. intros h. cbn beta. unfold ps_diff.
    destruct (f h), (g h); split; try (intros [X0 Y]); try congruence. intros _. split; discriminate.
  Qed.
  Lemma div_silent {X} (P : X -> Prop) w w' (f g : list X -> option F) : fsilent P w f -> fsilent P w' g ->
    fsilent P (Nat.max w w') (fun h => ps_div (f h) (g h)).
  Proof.
    intros H H'. eapply fsilent_max; [exact H | exact H'|]. intros h Hh. cbn beta in *. unfold ps_div.
    destruct (f h), (g h); try reflexivity. destruct Hh; discriminate.
  Qed.
  Theorem C106_vortex n c bs os : (1 <= n)%nat -> fresh_over c bs -> Forall complete bs ->
    run_new (vortex_new n) vortex_step c (ticks (length bs)) = Ok os -> silent_before n (map fst os) /\ silent_before n (map snd os).
  Proof.
    intros Hn FO HC E. rewrite vortex_run in E; [|assumption..|apply complete_hl, HC]. injection E as <-.
    rewrite each_prefix_fst, each_prefix_snd. unfold vortex_out. cbn [fst snd].
    assert (XP : fsilent complete 1 (vx_plus (F := F))).
    { eapply fsilent_ext; [|apply fstarts_silent, (prv_starts complete b_low c_low)]. intros h Hh. unfold vx_plus. rewrite Hh. destruct (cur b_high h); reflexivity. }
    assert (XM : fsilent complete 1 (vx_minus (F := F))).
    { eapply fsilent_ext; [|apply fstarts_silent, (prv_starts complete b_high c_high)]. intros h Hh. unfold vx_minus. rewrite Hh. destruct (cur b_low h); reflexivity. }
    pose proof (silent_through complete 1 n _ _ Hn XP (sum_patient n)) as YP. pose proof (silent_through complete 1 n _ _ Hn XM (sum_patient n)) as YM.
    replace (1 + n - 1)%nat with n in YP, YM by lia.
    split; (apply bars_silent; [|exact HC]); intros h N HP L; [specialize (YP h N HP L) | specialize (YM h N HP L)]; cbn beta in *; [rewrite YP | rewrite YM]; reflexivity.
  Qed.
  Lemma min_starts {X} (P : X -> Prop) w w' (f g : list X -> option F) : fstarts P w f -> fstarts P w' g ->
    fstarts P (Nat.max w w') (fun h => ps_min (f h) (g h)).
  Proof.
    intros H H'. eapply fstarts_max; [exact H | exact H'|]. intros h. cbn beta. unfold ps_min.
    destruct (f h), (g h); split; try (intros [X0 Y]); try congruence. intros _. split; discriminate.
  Qed.
  Lemma bp_starts : fstarts complete 1 (uo_bp_of (F := F)).
  Proof.
    change 1%nat with (Nat.max 0 (Nat.max 0 1)). unfold uo_bp_of, uo_bp. apply diff_starts; [apply (cur_starts complete b_close c_close)|].
    apply min_starts; [apply (cur_starts complete b_low c_low) | apply (prv_starts complete b_close c_close)].
  Qed.
  Lemma ratio_silent n : (1 <= n)%nat -> fsilent complete n (uo_ratio (F := F) n).
  Proof.
    intros Hn. pose proof (silent_through complete 1 n _ _ Hn (fstarts_silent _ _ _ bp_starts) (sum_patient n)) as X. replace (1 + n - 1)%nat with n in X by lia.
    eapply fsilent_ext; [|exact X]. intros h Hh. cbn beta in Hh. unfold uo_ratio. rewrite Hh. reflexivity.
  Qed.
  Theorem C106_ultimate a b d c bs os : (1 <= a)%nat -> (1 <= b)%nat -> (1 <= d)%nat -> fresh_over c bs -> Forall complete bs ->
    run_new (uo_new a b d) uo_step c (ticks (length bs)) = Ok os -> silent_before (Nat.max (Nat.max a b) d) os.
  Proof.
    intros Ha Hb Hd FO HC E. rewrite uo_run in E by assumption. injection E as <-. apply bars_silent; [|exact HC].
    intros h N HP L. unfold uo_out, uo_value.
    assert (Q : (length h <= a \/ length h <= b \/ length h <= d)%nat) by lia. destruct Q as [Q|[Q|Q]].
    - rewrite (ratio_silent a Ha h N HP Q). reflexivity.
    - rewrite (ratio_silent b Hb h N HP Q). destruct (uo_ratio a h); reflexivity.
    - rewrite (ratio_silent d Hd h N HP Q). destruct (uo_ratio a h), (uo_ratio b h); reflexivity.
  Qed.
  Theorem C106_vigor n c bs os : (1 <= n)%nat -> fresh_over c bs -> Forall complete bs ->
    run_new (rvgi_new n) rvgi_step c (ticks (length bs)) = Ok os -> silent_before (n + 2) (map fst os) /\ silent_before (n + 5) (map snd os).
  Proof.
    intros Hn FO HC E. rewrite rvgi_run in E by assumption. injection E as <-. rewrite each_prefix_fst, each_prefix_snd. unfold rvgi_out. cbn [fst snd].
    assert (X : fsilent complete 3 (swma_of (F := F) rvgi_co)).
    { apply (fstarts_silent complete). apply (col_starts rvgi_co 4 (swma_out 0)); [|lia | apply swma_patient | apply swma_ready].
      intros b Hb. unfold rvgi_co, ps_diff. pose proof (c_close b Hb). pose proof (c_open b Hb). destruct (b_close b), (b_open b); congruence. }
    pose proof (silent_through complete 3 n _ _ Hn X (sum_patient n)) as Y. replace (3 + n - 1)%nat with (n + 2)%nat in Y by lia.
    assert (V : fsilent complete (n + 2) (rvgi_rvi (F := F) n)).
    { eapply fsilent_ext; [|exact Y]. intros h Hh. cbn beta in Hh. unfold rvgi_rvi. rewrite Hh. reflexivity. }
    pose proof (silent_through complete (n + 2) 4 _ _ ltac:(lia) V swma_patient) as W. replace (n + 2 + 4 - 1)%nat with (n + 5)%nat in W by lia.
    split; apply bars_silent; [exact V | exact HC | exact W | exact HC].
  Qed.
  Lemma last_present_silent {X} (P : X -> Prop) w (f : list X -> option F) : fsilent P w f -> fsilent P w (fun h => last_present (each_prefix f h)).
  Proof.
    intros H h N HP L. unfold last_present. pose proof (present_silent P w f h H HP) as Q.
    destruct (present (each_prefix f h)); [reflexivity | cbn in Q; lia].
  Qed.
  Theorem C106_directional n m c bs os : (1 <= n)%nat -> (1 <= m)%nat -> fresh_over c bs -> Forall complete bs ->
    run_new (dmi_new n m) dmi_step c (ticks (length bs)) = Ok os ->
    silent_before n (map (fun o => fst (fst o)) os) /\ silent_before n (map (fun o => snd (fst o)) os) /\ silent_before (n + m - 1) (map snd os).
  Proof.
    intros Hn Hm FO HC E. rewrite dmi_run in E; [|assumption..|apply complete_hlc, HC]. injection E as <-. rewrite !each_prefix_map. unfold dmi_out. cbn [fst snd].
    assert (T := silent_through complete 1 n _ _ Hn (fstarts_silent _ _ _ (tr_starts false)) (ema_patient (rma_alpha_of n) n Hn)).
    replace (1 + n - 1)%nat with n in T by lia.
    assert (D : forall f, fsilent complete n (dmi_di (F := F) n f)).
    { intros f. unfold dmi_di. apply last_present_silent. eapply fsilent_ext; [|exact T]. intros h Hh. cbn beta in Hh. unfold dmi_raw, dmi_rma. rewrite Hh.
      unfold ps_div. destruct (ema_out _ _ (each_prefix f h)); reflexivity. }
    assert (DX : fsilent complete n (dmi_dx_of (F := F) n)).
    { eapply fsilent_ext; [|exact (D plus_dm)]. intros h Hh. unfold dmi_dx_of. rewrite Hh. reflexivity. }
    pose proof (silent_through complete n m _ _ Hm DX (ema_patient (rma_alpha_of m) m Hm)) as W.
    conj; apply bars_silent; try exact HC; try apply D.
    eapply fsilent_ext; [|exact W]. intros h Hh. cbn beta in *. rewrite Hh. reflexivity.
  Qed.

  (** *** Oscillators built from two moving averages *)
  Lemma nth_zip {A B C} (f : A -> B -> C) a b i x y : nth_error a i = Some x -> nth_error b i = Some y -> nth_error (zip f a b) i = Some (f x y).
  Proof.
    intros H H'. unfold zip. rewrite nth_error_map.
    assert (E : nth_error (combine a b) i = Some (x, y)).
    { revert b i H H'. induction a as [|u a IH]; intros b i H H'; [destruct i; discriminate|]. destruct b as [|v b]; [destruct i; discriminate|].
      destruct i as [|i]; [cbn in *; congruence | exact (IH b i H H')]. }
    rewrite E. reflexivity.
  Qed.
  Lemma length_zip {A B C} (f : A -> B -> C) a b : length (zip f a b) = Nat.min (length a) (length b).
  Proof. unfold zip. rewrite map_length, combine_length. reflexivity. Qed.
  Lemma starts_zip {A B C} (f : option A -> option B -> option C) w w' a b : starts_at w a -> starts_at w' b ->
    (forall x y, f x None = None /\ f None y = None) -> (forall x y, f (Some x) (Some y) <> None) -> starts_at (Nat.max w w') (zip f a b).
  Proof.
    intros [S1 T1] [S2 T2] H H'. split.
    - intros i L Li. rewrite length_zip in Li.
      destruct (nth_error a i) as [x|] eqn:E1; [|apply nth_error_None in E1; lia]. destruct (nth_error b i) as [y|] eqn:E2; [|apply nth_error_None in E2; lia].
      rewrite (nth_zip f a b i x y E1 E2). destruct (Nat.lt_ge_cases i w) as [G|G].
      + rewrite (S1 i G ltac:(lia)) in E1. injection E1 as <-. rewrite (proj2 (H None y)). reflexivity.
      + rewrite (S2 i ltac:(lia) ltac:(lia)) in E2. injection E2 as <-. rewrite (proj1 (H x None)). reflexivity.
    - intros i L Li. rewrite length_zip in Li. destruct (T1 i ltac:(lia) ltac:(lia)) as (x & E1). destruct (T2 i ltac:(lia) ltac:(lia)) as (y & E2).
      rewrite (nth_zip f a b i _ _ E1 E2). specialize (H' x y). destruct (f (Some x) (Some y)) as [v|]; [exists v; reflexivity | congruence].
  Qed.
  Lemma starts_warm {A} w (l : list (option A)) : starts_at w l -> exists vs, l = warm (Nat.min w (length l)) vs /\ length vs = (length l - w)%nat.
  Proof.
    intros [S1 T1]. induction l as [|x l IH] using rev_ind; [exists []; split; [rewrite Nat.min_0_r; reflexivity | reflexivity]|].
    destruct IH as (vs & E & L).
    - intros i G Gi. specialize (S1 i G ltac:(rewrite app_length; lia)). rewrite nth_error_app1 in S1 by exact Gi. exact S1.
    - intros i G Gi. specialize (T1 i G ltac:(rewrite app_length; lia)). rewrite nth_error_app1 in T1 by exact Gi. exact T1.
    - rewrite app_length. cbn [length]. destruct (Nat.lt_ge_cases (length l) w) as [G|G].
      + specialize (S1 (length l) G ltac:(rewrite app_length; cbn; lia)). rewrite nth_error_app2, Nat.sub_diag in S1 by lia. cbn in S1. injection S1 as ->.
        assert (vs = []) by (destruct vs; [reflexivity | cbn in L; lia]). subst vs. exists []. split; [|cbn; lia].
        rewrite Nat.min_r in * by lia. rewrite E at 1. replace (length l + 1)%nat with (S (length l)) by lia. rewrite warm_S_nil. reflexivity.
      + destruct (T1 (length l) G ltac:(rewrite app_length; cbn; lia)) as (v & Ev). rewrite nth_error_app2, Nat.sub_diag in Ev by lia. cbn in Ev. injection Ev as ->.
        exists (vs ++ [v]). rewrite warm_snoc, app_length. cbn [length]. split; [|lia]. rewrite E at 1. do 2 f_equal. lia.
  Qed.
  Lemma warm_through k n (g : hist -> option F) vs : (1 <= n)%nat -> patient n g -> ready n g -> starts_at (k + n - 1) (each_prefix g (warm k vs)).
  Proof.
    intros Hn G R. split.
    - intros i L Li. rewrite length_each_prefix in Li. rewrite nth_error_each_prefix by exact Li. rewrite warm_prefix. rewrite G; [reflexivity|].
      rewrite present_warm, firstn_length. lia.
    - intros i L Li. rewrite length_each_prefix, length_warm in Li. rewrite nth_error_each_prefix by (rewrite length_warm; exact Li). rewrite warm_prefix.
      pose proof (R (Nat.min (S i) k) (firstn (S i - k) vs) ltac:(rewrite firstn_length; lia)) as Q. destruct (g _) as [v|]; [exists v; reflexivity | congruence].
  Qed.
  Lemma starts_le {A} w w' (l : list (option A)) : starts_at w l -> (w = w' \/ length l <= w /\ length l <= w')%nat -> starts_at w' l.
  Proof.
    intros H [->|[G G']]; [exact H|]. split; [|intros; lia]. intros i L Li. apply H; lia.
  Qed.
  Lemma ma_then k n c m w (l : hist) os : ma_new k n = Ok m -> (1 <= n)%nat -> c_index c = 0 -> starts_at w l ->
    run ostep c m l = Ok os -> starts_at (w + ma_wait k n - 1) os /\ length os = length l.
  Proof.
    intros E Hn Z S R. destruct (starts_warm w l S) as (vs & El & Lv).
    assert (W : warmed l) by (eexists _, _; exact El).
    pose proof (makes_run _ _ _ _ c l (ma_makes k n Hn) W) as Q. unfold run_new in Q. rewrite E in Q. cbn [rbind] in Q. unfold ma_step in Q.
    rewrite R, Z in Q. injection Q as ->. split; [|apply length_each_prefix].
    assert (HW : (1 <= ma_wait k n)%nat) by (destruct k; cbn; lia).
    apply starts_le with (w := (Nat.min w (length l) + ma_wait k n - 1)%nat).
    - rewrite El at 2. apply warm_through; [exact HW | apply ma_patient, Hn | apply ma_ready, Hn].
    - rewrite length_each_prefix. lia.
  Qed.
  Lemma full_starts (vs : list F) : starts_at 0 (map Some vs).
  Proof.
    split; [intros i L; lia|]. intros i _ Li. rewrite map_length in Li. rewrite nth_error_map.
    destruct (nth_error vs i) as [v|] eqn:E; [exists v; reflexivity | apply nth_error_None in E; lia].
  Qed.
  Definition warmup (k : ma_kind) (n : nat) : nat := match k with SWMA => 3 | _ => n - 1 end.
  Lemma warmup_wait k n : (0 + ma_wait k n - 1)%nat = warmup k n.
  Proof. destruct k; reflexivity. Qed.
  Lemma minus_none (x y : option F) : minus x None = None /\ minus None y = None.
  Proof. split; [destruct x|]; reflexivity. Qed.
  Lemma minus_some (x y : F) : minus (Some x) (Some y) <> None.
  Proof. discriminate. Qed.

  Theorem C106_macd m n m' n' m'' n'' c src src' vs ws os :
    (1 <= n)%nat -> (1 <= n')%nat -> (1 <= n'')%nat -> c_index c = 0 -> feeds c src (map Some vs) -> feeds c src' (map Some ws) -> length ws = length vs ->
    run_new (s <- ma_new m n ;; l <- ma_new m' n' ;; g <- ma_new m'' n'' ;; Ok (mkMacd src src' s l g)) macd_step c (ticks (length vs)) = Ok os ->
    starts_at (Nat.max (warmup m n) (warmup m' n')) (map fst os) /\
    starts_at (Nat.max (warmup m n) (warmup m' n') + warmup m'' n'') (map snd os).
  Proof.
    intros Hn Hn' Hn'' Z FE FE' LL E. unfold run_new in E.
    destruct (ma_new m n) as [a|] eqn:A; [|discriminate]. destruct (ma_new m' n') as [b|] eqn:B; [|discriminate]. destruct (ma_new m'' n'') as [g|] eqn:G; [|discriminate].
    cbn [rbind] in E. rewrite C58_macd in E. unfold feeds in FE, FE'. rewrite map_length in FE, FE'. rewrite LL in FE'. rewrite FE, FE' in E. cbn [rbind] in E.
    destruct (run ostep c a (map Some vs)) as [sm|] eqn:R1; [|discriminate]. cbn [rbind] in E.
    destruct (run ostep c b (map Some ws)) as [lm|] eqn:R2; [|discriminate]. cbn [rbind] in E.
    destruct (run ostep c g (zip minus sm lm)) as [sg|] eqn:R3; [|discriminate]. cbn [rbind] in E. injection E as <-.
    destruct (ma_then m n c a 0 _ sm A Hn Z (full_starts vs) R1) as [S1 L1]. destruct (ma_then m' n' c b 0 _ lm B Hn' Z (full_starts ws) R2) as [S2 L2].
    rewrite warmup_wait in S1, S2. rewrite map_length in L1, L2.
    pose proof (starts_zip minus _ _ _ _ S1 S2 minus_none minus_some) as S3.
    destruct (ma_then m'' n'' c g _ _ sg G Hn'' Z S3 R3) as [S4 L4].
    assert (LZ : length (zip minus sm lm) = length sg) by (symmetry; exact L4).
    assert (C1 : map fst (combine (zip minus sm lm) sg) = zip minus sm lm).
    { clear -LZ. revert sg LZ. generalize (zip minus sm lm). intros l. induction l as [|x l IH]; intros [|y sg] Q; try discriminate; [reflexivity|]. cbn. f_equal. apply IH. cbn in Q. lia. }
    assert (C2 : map snd (combine (zip minus sm lm) sg) = sg).
    { clear -LZ. revert sg LZ. generalize (zip minus sm lm). intros l. induction l as [|x l IH]; intros [|y sg] Q; try discriminate; [reflexivity|]. cbn. f_equal. apply IH. cbn in Q. lia. }
    rewrite C1, C2. split; [exact S3|].
    replace (Nat.max (warmup m n) (warmup m' n') + warmup m'' n'')%nat with (Nat.max (warmup m n) (warmup m' n') + ma_wait m'' n'' - 1)%nat; [exact S4|].
    rewrite <- (warmup_wait m'' n''). destruct m''; cbn [ma_wait]; lia.
  Qed.
  Theorem C106_price m n m' n' c src vs os :
    (1 <= n)%nat -> (1 <= n')%nat -> c_index c = 0 -> feeds c src (map Some vs) ->
    run_new (s <- ma_new m n ;; l <- ma_new m' n' ;; Ok (mkPo src s l)) po_step c (ticks (length vs)) = Ok os ->
    starts_at (Nat.max (warmup m n) (warmup m' n')) os.
  Proof.
    intros Hn Hn' Z FE E. unfold run_new in E.
    destruct (ma_new m n) as [a|] eqn:A; [|discriminate]. destruct (ma_new m' n') as [b|] eqn:B; [|discriminate].
    cbn [rbind] in E. rewrite C58_price in E. unfold feeds in FE. rewrite map_length in FE. rewrite FE in E. cbn [rbind] in E.
    destruct (run ostep c a (map Some vs)) as [sm|] eqn:R1; [|discriminate]. cbn [rbind] in E.
    destruct (run ostep c b (map Some vs)) as [lm|] eqn:R2; [|discriminate]. cbn [rbind] in E. injection E as <-.
    destruct (ma_then m n c a 0 _ sm A Hn Z (full_starts vs) R1) as [S1 L1]. destruct (ma_then m' n' c b 0 _ lm B Hn' Z (full_starts vs) R2) as [S2 L2].
    rewrite warmup_wait in S1, S2. apply (starts_zip percent_difference _ _ _ _ S1 S2).
    - intros x y. split; [destruct x|]; reflexivity.
    - discriminate.
  Qed.
  (** The awesome oscillator is the change of the difference from the bar before: one bar later. *)
  Theorem C106_awesome m n m' n' c src src' vs ws os :
    (1 <= n)%nat -> (1 <= n')%nat -> c_index c = 0 -> feeds c src (map Some vs) -> feeds c src' (map Some ws) -> length ws = length vs ->
    run_new (s <- ma_new m n ;; l <- ma_new m' n' ;; Ok (ao_new src src' s l)) ao_step c (ticks (length vs)) = Ok os ->
    starts_at (Nat.max (warmup m n) (warmup m' n') + 1) os.
  Proof.
    intros Hn Hn' Z FE FE' LL E. unfold run_new in E.
    destruct (ma_new m n) as [a|] eqn:A; [|discriminate]. destruct (ma_new m' n') as [b|] eqn:B; [|discriminate].
    cbn [rbind] in E. rewrite C58_awesome in E. unfold feeds in FE, FE'. rewrite map_length in FE, FE'. rewrite LL in FE'. rewrite FE, FE' in E. cbn [rbind] in E.
    destruct (run ostep c a (map Some vs)) as [sm|] eqn:R1; [|discriminate]. cbn [rbind] in E.
    destruct (run ostep c b (map Some ws)) as [lm|] eqn:R2; [|discriminate]. cbn [rbind] in E. injection E as <-.
    destruct (ma_then m n c a 0 _ sm A Hn Z (full_starts vs) R1) as [S1 L1]. destruct (ma_then m' n' c b 0 _ lm B Hn' Z (full_starts ws) R2) as [S2 L2].
    rewrite warmup_wait in S1, S2. pose proof (starts_zip minus _ _ _ _ S1 S2 minus_none minus_some) as S3.
    assert (S4 : starts_at (Nat.max (warmup m n) (warmup m' n') + 1) (None :: zip minus sm lm)).
    { destruct S3 as [P Q]. split.
      - intros [|i] L Li; [reflexivity|]. cbn. apply P; cbn in Li; lia.
      - intros [|i] L Li; [lia|]. cbn. apply Q; cbn in Li; lia. }
    pose proof (starts_zip minus _ _ _ _ S3 S4 minus_none minus_some) as S5. rewrite Nat.max_r in S5 by lia. exact S5.
  Qed.
  Theorem C106_volume m n m' n' c bs os :
    (1 <= n)%nat -> (1 <= n')%nat -> fresh_over c bs -> Forall complete bs ->
    run_new (s <- ma_new m n ;; l <- ma_new m' n' ;; Ok (mkVo s l)) vo_step c (ticks (length bs)) = Ok os ->
    silent_before (Nat.max (warmup m n) (warmup m' n')) os.
  Proof.
    intros Hn Hn' FO HC E. pose proof (fresh_c_index c bs FO) as Z. unfold run_new in E.
    destruct (ma_new m n) as [a|] eqn:A; [|discriminate]. destruct (ma_new m' n') as [b|] eqn:B; [|discriminate].
    cbn [rbind] in E. rewrite (C58_volume c bs a b FO) in E.
    destruct (complete_values b_volume bs) as (vs & EV & LE). { eapply Forall_impl; [|exact HC]. apply c_volume. }
    rewrite EV in E.
    destruct (run ostep c a (map Some vs)) as [sm|] eqn:R1; [|discriminate]. cbn [rbind] in E.
    destruct (run ostep c b (map Some vs)) as [lm|] eqn:R2; [|discriminate]. cbn [rbind] in E. injection E as <-.
    destruct (ma_then m n c a 0 _ sm A Hn Z (full_starts vs) R1) as [[S1 _] L1]. destruct (ma_then m' n' c b 0 _ lm B Hn' Z (full_starts vs) R2) as [[S2 _] L2].
    rewrite warmup_wait in S1, S2. intros i L Li. rewrite length_zip in Li.
    destruct (nth_error sm i) as [x|] eqn:E1; [|apply nth_error_None in E1; lia]. destruct (nth_error lm i) as [y|] eqn:E2; [|apply nth_error_None in E2; lia].
    rewrite (nth_zip _ sm lm i x y E1 E2). destruct (Nat.lt_ge_cases i (warmup m n)) as [G|G].
    - rewrite (S1 i G ltac:(lia)) in E1. injection E1 as <-. reflexivity.
    - rewrite (S2 i ltac:(lia) ltac:(lia)) in E2. injection E2 as <-. destruct x; reflexivity.
  Qed.
End C106.

(** The bounds are reached: on a wavy series of 45 complete bars every default
    indicator has its first value exactly at the bar named above.  (Stochastic
    RSI: one bar later, because its range over a single RSI value is 0; on flat
    prices, where RSI is NaN, exactly there.) *)
Definition wavy : list (bar f64) :=
  map (fun i => let z := (100 + Z.of_nat ((7 * i) mod 11) + Z.of_nat ((5 * i) mod 3))%Z in
                qbar (z, z + 3 + Z.of_nat (i mod 2), z - 2, z + 1 - Z.of_nat (i mod 3), 50 + Z.of_nat (i mod 4))%Z) (seq 0 45).
Fixpoint first_some {A} (os : list (option A)) (i : nat) : option nat :=
  match os with [] => None | Some _ :: _ => Some i | None :: t => first_some t (S i) end.
Definition first_value {A B} (get : A -> option B) (r : res (list A)) : option nat :=
  match r with Ok os => first_some (map get os) 0 | Panic => None end.
Definition on_wavy {S O} (new : res S) (step : ctx f64 -> S -> unit -> res (S * O)) : res (list O) :=
  c <- ctx_over wavy ;; run_new new step c (ticks 45).
Definition id_opt {A} (x : option A) := x.
Example C106_ex :
  [first_value fst (on_wavy aroon_default aroon_step); first_value snd (on_wavy aroon_default aroon_step);
   first_value id_opt (on_wavy ao_default ao_step);
   first_value id_opt (on_wavy bb_default bbpb_step); first_value id_opt (on_wavy bb_default bbw_step);
   first_value id_opt (on_wavy cmf_default cmf_step);
   first_value (fun o => fst (fst (fst o))) (on_wavy cks_default cks_step); first_value snd (on_wavy cks_default cks_step);
   first_value id_opt (on_wavy cmo_default cmo_step); first_value id_opt (on_wavy chop_default chop_step);
   first_value id_opt (on_wavy cci_default cci_step); first_value id_opt (on_wavy cop_default cop_step);
   first_value (fun o => fst (fst o)) (on_wavy dmi_default dmi_step); first_value snd (on_wavy dmi_default dmi_step);
   first_value snd (on_wavy don_default don_step);
   first_value fst (on_wavy macd_default macd_step); first_value snd (on_wavy macd_default macd_step);
   first_value id_opt (on_wavy po_default po_step); first_value id_opt (on_wavy rsii_default rsii_step);
   first_value fst (on_wavy rvgi_default rvgi_step); first_value snd (on_wavy rvgi_default rvgi_step);
   first_value fst (on_wavy srsi_default srsi_step); first_value snd (on_wavy srsi_default srsi_step);
   first_value id_opt (on_wavy uo_default uo_step); first_value id_opt (on_wavy vo_default vo_step);
   first_value fst (on_wavy vortex_default vortex_step); first_value snd (on_wavy vortex_default vortex_step);
   first_value id_opt (on_wavy wpr_default wpr_step)] = map Some [13; 13; 34; 19; 19; 19; 9; 9; 9; 13; 19; 23; 14; 27; 19; 25; 33; 20; 14; 12; 15; 17; 19; 28; 9; 14; 14; 13].
Proof. vm_compute. reflexivity. Qed.
Example C106_ex_flat :
  let flat := repeat (qbar (5, 5, 5, 5, 1)%Z) 20 in
  (c <- ctx_over flat ;; r <- run_new srsi_default srsi_step c (ticks 20) ;; Ok (first_some (map fst r) 0, first_some (map snd r) 0)) = Ok (Some 16, Some 18).
Proof. vm_compute. reflexivity. Qed.
Example C106_ex_complete : Forall complete wavy /\ exists c, ctx_over wavy = Ok c /\ fresh_over c wavy.
Proof.
  split.
  - apply Forall_forall. intros b Hb. unfold wavy in Hb. apply in_map_iff in Hb. destruct Hb as (i & <- & _). repeat split; discriminate.
  - destruct (ctx_over_fresh wavy) as (c & E & H & _); [discriminate|]. exists c. split; assumption.
Qed.
