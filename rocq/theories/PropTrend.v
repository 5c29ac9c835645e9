(** * PropTrend: property C117. *)
From Flocq Require Import Core IEEE754.BinarySingleNaN.
From Verif Require Export PropTa2 PropTa3 PropContent1 PropSignal PropWin.
From Verif Require Import PTa4 PTa3 PRun PIeee SpecBar PExact3 Inst.
From Coq Require Import Lra Psatz.
Local Open Scope nat_scope.

(** ** Specification *)
Section SpecTrend.
  Context {F : Type} {NF : Num F}.
  Local Open Scope num_scope.
  (** Numbers, each above (below) the one before. *)
  Definition climbs (xs : list F) : Prop := PTa4.no_nan xs /\
    forall i a b, nth_error xs i = Some a -> nth_error xs (S i) = Some b -> (a <? b) = true.
  Definition drops (xs : list F) : Prop := PTa4.no_nan xs /\
    forall i a b, nth_error xs i = Some a -> nth_error xs (S i) = Some b -> (b <? a) = true.
  (** The newest value, from when there are [len] of them. *)
  Definition newest_of (len : nat) (h : list F) : option F := if (len <=? length h)%nat then newest h else None.
  (** The oldest of the last [len]. *)
  Definition oldest_of (len : nat) (h : list F) : option F := ago (len - 1) h.
End SpecTrend.

Section Generic.
  Context {F : Type} {NF : Num F} {OF : OrdNum F}.
  Local Open Scope num_scope.
  Lemma climbs_lt (xs : list F) i j a b : climbs xs -> (i < j)%nat -> nth_error xs i = Some a -> nth_error xs j = Some b -> (a <? b) = true.
  Proof.
    intros [_ C] L. revert a b. induction L as [|j L IH]; intros a b Ha Hb; [apply (C i a b Ha Hb)|].
    destruct (nth_error xs j) as [m|] eqn:E; [|apply nth_error_None in E; assert (j < length xs)%nat by (assert (H : nth_error xs (S j) <> None) by congruence; apply nth_error_Some in H; lia); lia].
    apply (lt_trans _ m); [apply IH; auto|apply (C j); assumption].
  Qed.
  Lemma drops_lt (xs : list F) i j a b : drops xs -> (i < j)%nat -> nth_error xs i = Some a -> nth_error xs j = Some b -> (b <? a) = true.
  Proof.
    intros [_ C] L. revert a b. induction L as [|j L IH]; intros a b Ha Hb; [apply (C i a b Ha Hb)|].
    destruct (nth_error xs j) as [m|] eqn:E; [|apply nth_error_None in E; assert (j < length xs)%nat by (assert (H : nth_error xs (S j) <> None) by congruence; apply nth_error_Some in H; lia); lia].
    apply (lt_trans _ m); [apply (C j); assumption|apply IH; auto].
  Qed.

  (** A list in which every element is in relation to every later one. *)
  Definition chain (rel : F -> F -> Prop) (h : list F) : Prop :=
    forall i j a b, (i < j)%nat -> nth_error h i = Some a -> nth_error h j = Some b -> rel a b.
  Lemma chain_climbs xs : climbs xs -> chain (fun a b => (a <? b) = true) xs.
  Proof. intros C i j a b L A B. eapply climbs_lt; eassumption. Qed.
  Lemma chain_drops xs : drops xs -> chain (fun a b => (b <? a) = true) xs.
  Proof. intros C i j a b L A B. eapply drops_lt; eassumption. Qed.
  Lemma chain_firstn rel k h : chain rel h -> chain rel (firstn k h).
  Proof.
    intros C i j a b L A B. rewrite PropBacktest.nth_error_firstn in A, B. destruct (i <? k)%nat; [|discriminate]. destruct (j <? k)%nat; [|discriminate].
    eapply C; eassumption.
  Qed.
  Lemma nth_skipn {A} n (l : list A) k : nth_error (skipn n l) k = nth_error l (n + k).
  Proof. revert l. induction n as [|n IH]; intros [|x l]; cbn; try reflexivity; [destruct k; reflexivity|apply IH]. Qed.
  Lemma nth_window {A} n (l : list A) k : (n <= length l)%nat -> nth_error (lastn n l) k = nth_error l (length l - n + k).
  Proof. intros L. unfold lastn. apply nth_skipn. Qed.
  Lemma window_newest {A} n (l : list A) : (1 <= n <= length l)%nat -> nth_error (lastn n l) (n - 1) = newest l.
  Proof. intros L. rewrite nth_window by lia. unfold newest. f_equal. lia. Qed.
  Lemma window_oldest {A} n (l : list A) : (1 <= n <= length l)%nat -> nth_error (lastn n l) 0 = ago (n - 1) l.
  Proof. intros L. rewrite nth_window by lia. unfold ago. destruct (Nat.ltb_spec (n - 1) (length l)); [|lia]. f_equal. lia. Qed.
  Lemma ext_last rel n h j m : chain rel h -> (1 <= n <= length h)%nat -> nth_error (lastn n h) j = Some m ->
    (forall v, In v (lastn n h) -> ~ rel m v) -> j = (n - 1)%nat /\ newest h = Some m.
  Proof.
    intros C L H X. assert (J : (j < n)%nat) by (assert (Q : nth_error (lastn n h) j <> None) by congruence; apply nth_error_Some in Q; rewrite length_lastn in Q; lia).
    destruct (Nat.eq_dec j (n - 1)) as [->|NE]; [rewrite window_newest in H by lia; auto|exfalso].
    pose proof (window_newest n h L) as W. destruct (newest h) as [z|] eqn:E.
    - apply (X z); [eapply nth_error_In; exact W|]. rewrite nth_window in H by lia. unfold newest in E.
      eapply (C _ _ m z); [|exact H|exact E]. lia.
    - apply nth_error_None in E. lia.
  Qed.
  Lemma ext_first rel n h j m : chain rel h -> (1 <= n <= length h)%nat -> nth_error (lastn n h) j = Some m ->
    (forall v, In v (lastn n h) -> ~ rel v m) -> j = 0%nat /\ ago (n - 1) h = Some m.
  Proof.
    intros C L H X. assert (J : (j < n)%nat) by (assert (Q : nth_error (lastn n h) j <> None) by congruence; apply nth_error_Some in Q; rewrite length_lastn in Q; lia).
    destruct (Nat.eq_dec j 0) as [->|NE]; [rewrite window_oldest in H by lia; auto|exfalso].
    pose proof (window_oldest n h L) as W. rewrite nth_window in W, H by lia. destruct (ago (n - 1) h) as [z|] eqn:E.
    - apply (X z); [eapply nth_error_In; rewrite nth_window by lia; exact W|]. eapply (C _ _ z m); [|exact W|exact H]. lia.
    - apply nth_error_None in W. lia.
  Qed.

  Lemma present_Some {A} (l : list A) : present (map Some l) = l.
  Proof. induction l as [|x l IH]; [reflexivity|]. cbn. rewrite IH. reflexivity. Qed.
  (** from "every output has the described value" to the list of outputs *)
  Lemma outputs_eq {A B} (os : list B) (f : list A -> B) xs : length os = length xs ->
    (forall i o, nth_error os i = Some o -> o = f (firstn (S i) xs)) -> os = each_prefix f xs.
  Proof.
    intros L H. apply nth_error_ext. intros i. destruct (nth_error os i) as [o|] eqn:E.
    - rewrite (H i o E). symmetry. apply nth_error_each_prefix. assert (Q : nth_error os i <> None) by congruence. apply nth_error_Some in Q. lia.
    - symmetry. apply nth_error_None. apply nth_error_None in E. rewrite length_each_prefix. lia.
  Qed.
  Lemma len_lt {A} (os : list A) i o : nth_error os i = Some o -> (i < length os)%nat.
  Proof. intros H. apply nth_error_Some. congruence. Qed.

  (** ** Extrema *)
  Lemma highest_chain rel pick len (c : ctx F) xs : (1 <= len)%nat -> c_index c = 0%nat -> PTa4.no_nan xs ->
    (forall h m, (len <= length h)%nat -> chain rel h -> greatest m (lastn len h) -> pick h = Some m) -> (forall h, (length h < len)%nat -> pick h = None) ->
    chain rel xs -> run_new (highest_new len) highest_step c (map Some xs) = Ok (each_prefix pick xs).
  Proof.
    intros L Z N P0 P1 C. destruct (C18_highest len c (map Some xs) L Z) as (os & R & LO & H); [rewrite present_Some; exact N|].
    rewrite R. f_equal. rewrite map_length in LO. apply outputs_eq; [exact LO|]. intros i o Ho. specialize (H i o Ho). pose proof (len_lt _ _ _ Ho) as Li.
    assert (LH : length (firstn (S i) xs) = S i) by (rewrite firstn_length; lia).
    destruct (Nat.ltb_spec (S i) len); [rewrite H, P1 by lia; reflexivity|].
    rewrite firstn_map, lastn_map' in H. unfold extremum_of in H. rewrite present_Some in H. destruct o as [m|].
    - symmetry. apply P0; [lia|apply chain_firstn, C|exact H].
    - exfalso. assert (Q : length (lastn len (firstn (S i) xs)) = 0%nat) by (rewrite H; reflexivity). rewrite length_lastn in Q. lia.
  Qed.
  Lemma lowest_chain rel pick len (c : ctx F) xs : (1 <= len)%nat -> c_index c = 0%nat -> PTa4.no_nan xs ->
    (forall h m, (len <= length h)%nat -> chain rel h -> least m (lastn len h) -> pick h = Some m) -> (forall h, (length h < len)%nat -> pick h = None) ->
    chain rel xs -> run_new (lowest_new len) lowest_step c (map Some xs) = Ok (each_prefix pick xs).
  Proof.
    intros L Z N P0 P1 C. destruct (C18_lowest len c (map Some xs) L Z) as (os & R & LO & H); [rewrite present_Some; exact N|].
    rewrite R. f_equal. rewrite map_length in LO. apply outputs_eq; [exact LO|]. intros i o Ho. specialize (H i o Ho). pose proof (len_lt _ _ _ Ho) as Li.
    assert (LH : length (firstn (S i) xs) = S i) by (rewrite firstn_length; lia).
    destruct (Nat.ltb_spec (S i) len); [rewrite H, P1 by lia; reflexivity|].
    rewrite firstn_map, lastn_map' in H. unfold extremum_of in H. rewrite present_Some in H. destruct o as [m|].
    - symmetry. apply P0; [lia|apply chain_firstn, C|exact H].
    - exfalso. assert (Q : length (lastn len (firstn (S i) xs)) = 0%nat) by (rewrite H; reflexivity). rewrite length_lastn in Q. lia.
  Qed.
  Lemma not_lt_le' (a b : F) : (a <=? b) = true -> ~ ((b <? a) = true).
  Proof. intros H Q. apply le_not_lt in H. congruence. Qed.
  Lemma newest_short len h : (1 <= len)%nat -> (length h < len)%nat -> @newest_of F len h = None.
  Proof. intros L H. unfold newest_of. destruct (Nat.leb_spec len (length h)); [lia|reflexivity]. Qed.
  Lemma oldest_short len h : (1 <= len)%nat -> (length h < len)%nat -> @oldest_of F len h = None.
  Proof. intros L H. unfold oldest_of, ago. destruct (Nat.ltb_spec (len - 1) (length h)); [lia|reflexivity]. Qed.
  Lemma newest_long len h : (len <= length h)%nat -> @newest_of F len h = newest h.
  Proof. intros H. unfold newest_of. destruct (Nat.leb_spec len (length h)); [reflexivity|lia]. Qed.

  (** Over a rising series the highest is the newest value and the lowest the oldest of the window. *)
  Theorem C117_highest_rising len (c : ctx F) xs : (1 <= len)%nat -> c_index c = 0%nat -> climbs xs ->
    run_new (highest_new len) highest_step c (map Some xs) = Ok (each_prefix (newest_of len) xs).
  Proof.
    intros L Z C. apply (highest_chain (fun a b => (a <? b) = true)); auto; [apply C| |intros; apply newest_short; assumption|apply chain_climbs, C].
    intros h m LH CH [I G]. rewrite newest_long by exact LH. apply In_nth_error in I. destruct I as [j I]. rewrite Forall_forall in G.
    apply (ext_last _ len h j m CH); [lia|exact I|]. intros v Hv. apply not_lt_le', G, Hv.
  Qed.
  Theorem C117_lowest_rising len (c : ctx F) xs : (1 <= len)%nat -> c_index c = 0%nat -> climbs xs ->
    run_new (lowest_new len) lowest_step c (map Some xs) = Ok (each_prefix (oldest_of len) xs).
  Proof.
    intros L Z C. apply (lowest_chain (fun a b => (a <? b) = true)); auto; [apply C| |intros; apply oldest_short; assumption|apply chain_climbs, C].
    intros h m LH CH [I G]. unfold oldest_of. apply In_nth_error in I. destruct I as [j I]. rewrite Forall_forall in G.
    apply (ext_first _ len h j m CH); [lia|exact I|]. intros v Hv. apply not_lt_le', G, Hv.
  Qed.
  (** Over a falling series it is the other way round. *)
  Theorem C117_highest_falling len (c : ctx F) xs : (1 <= len)%nat -> c_index c = 0%nat -> drops xs ->
    run_new (highest_new len) highest_step c (map Some xs) = Ok (each_prefix (oldest_of len) xs).
  Proof.
    intros L Z C. apply (highest_chain (fun a b => (b <? a) = true)); auto; [apply C| |intros; apply oldest_short; assumption|apply chain_drops, C].
    intros h m LH CH [I G]. unfold oldest_of. apply In_nth_error in I. destruct I as [j I]. rewrite Forall_forall in G.
    apply (ext_first _ len h j m CH); [lia|exact I|]. intros v Hv. apply not_lt_le', G, Hv.
  Qed.
  Theorem C117_lowest_falling len (c : ctx F) xs : (1 <= len)%nat -> c_index c = 0%nat -> drops xs ->
    run_new (lowest_new len) lowest_step c (map Some xs) = Ok (each_prefix (newest_of len) xs).
  Proof.
    intros L Z C. apply (lowest_chain (fun a b => (b <? a) = true)); auto; [apply C| |intros; apply newest_short; assumption|apply chain_drops, C].
    intros h m LH CH [I G]. rewrite newest_long by exact LH. apply In_nth_error in I. destruct I as [j I]. rewrite Forall_forall in G.
    apply (ext_last _ len h j m CH); [lia|exact I|]. intros v Hv. apply not_lt_le', G, Hv.
  Qed.

  (** ** Bars since the extremum, Aroon *)
  Lemma first_max_climbs n h j : climbs h -> (1 <= n <= length h)%nat -> PTa4.first_max (lastn n (map Some h)) j -> j = (n - 1)%nat.
  Proof.
    intros C L (m & E & G & _). rewrite lastn_map' in E, G. rewrite nth_error_map in E. destruct (nth_error (lastn n h) j) as [z|] eqn:W; [|discriminate].
    cbn [option_map] in E. injection E as ->. eapply (ext_last _ n h j m (chain_climbs _ C)); [lia|exact W|]. intros v Hv.
    apply In_nth_error in Hv. destruct Hv as [k Hv]. apply not_lt_le', (G k). rewrite nth_error_map, Hv. reflexivity.
  Qed.
  Lemma first_min_climbs n h j : climbs h -> (1 <= n <= length h)%nat -> PTa4.first_min (lastn n (map Some h)) j -> j = 0%nat.
  Proof.
    intros C L (m & E & G & _). rewrite lastn_map' in E, G. rewrite nth_error_map in E. destruct (nth_error (lastn n h) j) as [z|] eqn:W; [|discriminate].
    cbn [option_map] in E. injection E as ->. eapply (ext_first _ n h j m (chain_climbs _ C)); [lia|exact W|]. intros v Hv.
    apply In_nth_error in Hv. destruct Hv as [k Hv]. apply not_lt_le', (G k). rewrite nth_error_map, Hv. reflexivity.
  Qed.
  Lemma first_max_drops n h j : drops h -> (1 <= n <= length h)%nat -> PTa4.first_max (lastn n (map Some h)) j -> j = 0%nat.
  Proof.
    intros C L (m & E & G & _). rewrite lastn_map' in E, G. rewrite nth_error_map in E. destruct (nth_error (lastn n h) j) as [z|] eqn:W; [|discriminate].
    cbn [option_map] in E. injection E as ->. eapply (ext_first _ n h j m (chain_drops _ C)); [lia|exact W|]. intros v Hv.
    apply In_nth_error in Hv. destruct Hv as [k Hv]. apply not_lt_le', (G k). rewrite nth_error_map, Hv. reflexivity.
  Qed.
  Lemma first_min_drops n h j : drops h -> (1 <= n <= length h)%nat -> PTa4.first_min (lastn n (map Some h)) j -> j = (n - 1)%nat.
  Proof.
    intros C L (m & E & G & _). rewrite lastn_map' in E, G. rewrite nth_error_map in E. destruct (nth_error (lastn n h) j) as [z|] eqn:W; [|discriminate].
    cbn [option_map] in E. injection E as ->. eapply (ext_last _ n h j m (chain_drops _ C)); [lia|exact W|]. intros v Hv.
    apply In_nth_error in Hv. destruct Hv as [k Hv]. apply not_lt_le', (G k). rewrite nth_error_map, Hv. reflexivity.
  Qed.
  Lemma climbs_firstn k (xs : list F) : climbs xs -> climbs (firstn k xs).
  Proof.
    intros [N C]. split; [unfold PTa4.no_nan in *; rewrite Forall_forall in *; intros x I; apply N; eapply firstn_In, I|].
    intros i a b A B. rewrite PropBacktest.nth_error_firstn in A, B. destruct (i <? k)%nat; [|discriminate]. destruct (S i <? k)%nat; [|discriminate]. apply (C i); assumption.
  Qed.
  Lemma drops_firstn k (xs : list F) : drops xs -> drops (firstn k xs).
  Proof.
    intros [N C]. split; [unfold PTa4.no_nan in *; rewrite Forall_forall in *; intros x I; apply N; eapply firstn_In, I|].
    intros i a b A B. rewrite PropBacktest.nth_error_firstn in A, B. destruct (i <? k)%nat; [|discriminate]. destruct (S i <? k)%nat; [|discriminate]. apply (C i); assumption.
  Qed.
  Definition from (len : nat) {A B} (v : B) (h : list A) : option B := if (len <=? length h)%nat then Some v else None.

  (** Highs and lows both rising: the newest bar has the high, the oldest bar of the window the low. *)
  Theorem C117_aroon_rising len (c : ctx F) bs hs ls : (1 <= len)%nat -> (Z.of_nat len <= 2 ^ 31)%Z -> fresh_over c bs ->
    map b_high bs = map Some hs -> map b_low bs = map Some ls -> climbs hs -> climbs ls ->
    exists os, run_new (aroon_new len) aroon_step c (ticks (length bs)) = Ok os /\ length os = length bs /\
      forall i o, nth_error os i = Some o -> o = if (S i <? len)%nat then (None, None) else (Some (aroon_of len 0), Some (aroon_of len (len - 1))).
  Proof.
    intros L B H EH EL CH CL. destruct (C47_aroon len c bs L B H) as (os & R & LO & X).
    - apply Forall_forall. intros b I. split.
      + assert (Q : In (b_high b) (map b_high bs)) by (apply in_map, I). rewrite EH in Q. apply in_map_iff in Q. destruct Q as (x & Q & _). rewrite <- Q. discriminate.
      + assert (Q : In (b_low b) (map b_low bs)) by (apply in_map, I). rewrite EL in Q. apply in_map_iff in Q. destruct Q as (x & Q & _). rewrite <- Q. discriminate.
    - rewrite EH, present_Some. apply CH.
    - rewrite EL, present_Some. apply CL.
    - exists os. split; [exact R|]. split; [exact LO|]. intros i o Ho. specialize (X i o Ho). cbv zeta in X. pose proof (len_lt _ _ _ Ho) as Li.
      assert (LH : length hs = length bs) by (apply (f_equal (@length _)) in EH; rewrite !map_length in EH; lia).
      assert (LL : length ls = length bs) by (apply (f_equal (@length _)) in EL; rewrite !map_length in EL; lia).
      destruct (Nat.ltb_spec (S i) len); [exact X|]. destruct X as (ku & kd & K1 & K2 & -> & FM & FN). rewrite EH, firstn_map in FM. rewrite EL, firstn_map in FN.
      apply first_max_climbs in FM; [|apply climbs_firstn, CH|rewrite firstn_length; lia]. apply first_min_climbs in FN; [|apply climbs_firstn, CL|rewrite firstn_length; lia].
      replace ku with 0%nat by lia. replace kd with (len - 1)%nat by lia. reflexivity.
  Qed.
  Theorem C117_aroon_falling len (c : ctx F) bs hs ls : (1 <= len)%nat -> (Z.of_nat len <= 2 ^ 31)%Z -> fresh_over c bs ->
    map b_high bs = map Some hs -> map b_low bs = map Some ls -> drops hs -> drops ls ->
    exists os, run_new (aroon_new len) aroon_step c (ticks (length bs)) = Ok os /\ length os = length bs /\
      forall i o, nth_error os i = Some o -> o = if (S i <? len)%nat then (None, None) else (Some (aroon_of len (len - 1)), Some (aroon_of len 0)).
  Proof.
    intros L B H EH EL CH CL. destruct (C47_aroon len c bs L B H) as (os & R & LO & X).
    - apply Forall_forall. intros b I. split.
      + assert (Q : In (b_high b) (map b_high bs)) by (apply in_map, I). rewrite EH in Q. apply in_map_iff in Q. destruct Q as (x & Q & _). rewrite <- Q. discriminate.
      + assert (Q : In (b_low b) (map b_low bs)) by (apply in_map, I). rewrite EL in Q. apply in_map_iff in Q. destruct Q as (x & Q & _). rewrite <- Q. discriminate.
    - rewrite EH, present_Some. apply CH.
    - rewrite EL, present_Some. apply CL.
    - exists os. split; [exact R|]. split; [exact LO|]. intros i o Ho. specialize (X i o Ho). cbv zeta in X. pose proof (len_lt _ _ _ Ho) as Li.
      assert (LH : length hs = length bs) by (apply (f_equal (@length _)) in EH; rewrite !map_length in EH; lia).
      assert (LL : length ls = length bs) by (apply (f_equal (@length _)) in EL; rewrite !map_length in EL; lia).
      destruct (Nat.ltb_spec (S i) len); [exact X|]. destruct X as (ku & kd & K1 & K2 & -> & FM & FN). rewrite EH, firstn_map in FM. rewrite EL, firstn_map in FN.
      apply first_max_drops in FM; [|apply drops_firstn, CH|rewrite firstn_length; lia]. apply first_min_drops in FN; [|apply drops_firstn, CL|rewrite firstn_length; lia].
      replace ku with (len - 1)%nat by lia. replace kd with 0%nat by lia. reflexivity.
  Qed.
End Generic.

(** ** Percent rank *)
Section Prank.
  Context {F : Type} {NF : Num F} {OF : OrdNum F}.
  Local Open Scope num_scope.
  Lemma count_all (v : F) l : (forall u, In u l -> (u <=? v) = true) -> count_le v (map Some l) = length l.
  Proof.
    unfold count_le. induction l as [|u l IH]; intros H; [reflexivity|]. cbn [map filter]. rewrite (H u (or_introl eq_refl)). cbn [length].
    rewrite IH; [reflexivity|]. intros w I. apply H. right. exact I.
  Qed.
  Lemma count_none (v : F) l : (forall u, In u l -> (u <=? v) = false) -> count_le v (map Some l) = 0%nat.
  Proof.
    unfold count_le. induction l as [|u l IH]; intros H; [reflexivity|]. cbn [map filter]. rewrite (H u (or_introl eq_refl)).
    apply IH. intros w I. apply H. right. exact I.
  Qed.
  Lemma in_earlier (xs : list F) n i u : In u (lastn n (firstn i xs)) -> exists j, (j < i)%nat /\ nth_error xs j = Some u.
  Proof.
    intros I. apply In_nth_error in I. destruct I as [k I]. unfold lastn in I. rewrite nth_skipn in I.
    rewrite PropBacktest.nth_error_firstn in I. destruct (Nat.ltb_spec (length (firstn i xs) - n + k) i); [|discriminate]. eauto.
  Qed.
  Definition after_len (len : nat) {A B} (v : B) (h : list A) : option B := if (len <? length h)%nat then Some v else None.
  Theorem C117_prank_rising len (c : ctx F) xs : (1 <= len)%nat -> c_index c = 0%nat -> climbs xs ->
    run_new (prank_new len) prank_step c (map Some xs) = Ok (each_prefix (after_len len (fnat len / fnat len * fZ 100)) xs).
  Proof.
    intros L Z C. destruct (C21_prank len c (map Some xs) L Z) as (os & R & LO & H). rewrite R. f_equal. rewrite map_length in LO.
    apply outputs_eq; [exact LO|]. intros i o Ho. pose proof (len_lt _ _ _ Ho) as Li.
    destruct (nth_error xs i) as [v|] eqn:E; [|apply nth_error_None in E; lia]. specialize (H i (Some v)). rewrite nth_error_map, E, Ho in H. specialize (H eq_refl). injection H as ->.
    unfold after_len. rewrite firstn_length. replace (Nat.min (S i) (length xs)) with (S i) by lia.
    destruct (Nat.ltb_spec i len), (Nat.ltb_spec len (S i)); try lia; [reflexivity|]. do 4 f_equal.
    rewrite firstn_map, lastn_map', count_all; [rewrite length_lastn, firstn_length; f_equal; lia|].
    intros u I. destruct (in_earlier _ _ _ _ I) as (j & J & U). apply lt_le. eapply climbs_lt; eassumption.
  Qed.
  Theorem C117_prank_falling len (c : ctx F) xs : (1 <= len)%nat -> c_index c = 0%nat -> drops xs ->
    run_new (prank_new len) prank_step c (map Some xs) = Ok (each_prefix (after_len len (fnat 0 / fnat len * fZ 100)) xs).
  Proof.
    intros L Z C. destruct (C21_prank len c (map Some xs) L Z) as (os & R & LO & H). rewrite R. f_equal. rewrite map_length in LO.
    apply outputs_eq; [exact LO|]. intros i o Ho. pose proof (len_lt _ _ _ Ho) as Li.
    destruct (nth_error xs i) as [v|] eqn:E; [|apply nth_error_None in E; lia]. specialize (H i (Some v)). rewrite nth_error_map, E, Ho in H. specialize (H eq_refl). injection H as ->.
    unfold after_len. rewrite firstn_length. replace (Nat.min (S i) (length xs)) with (S i) by lia.
    destruct (Nat.ltb_spec i len), (Nat.ltb_spec len (S i)); try lia; [reflexivity|]. do 5 f_equal.
    rewrite firstn_map, lastn_map', count_none; [reflexivity|].
    intros u I. destruct (in_earlier _ _ _ _ I) as (j & J & U). assert (Q : (v <? u) = true) by (eapply drops_lt; eassumption).
    destruct (u <=? v) eqn:W; [apply le_not_lt in W; congruence|reflexivity].
  Qed.

  (** ** Gains and losses *)
  Lemma present_pairs (g : option F -> option F -> option F) (G : F -> F -> F) xs :
    (forall a b, g (Some a) (Some b) = Some (G a b)) -> (forall b, g None b = None) ->
    present (each_prefix (fun p => g (join (ago 1 p)) (join (newest p))) (map Some xs)) = map (fun ab => G (fst ab) (snd ab)) (pairs xs).
  Proof.
    intros H1 H2. induction xs as [|b xs IH] using rev_ind; [reflexivity|]. rewrite map_app. cbn [map]. rewrite each_prefix_snoc, PCommon.present_app, IH.
    rewrite ago_S_snoc, newest_snoc. cbn [join]. destruct xs as [|a xs _] using rev_ind.
    - cbn. rewrite H2. reflexivity.
    - rewrite map_app. cbn [map]. rewrite ago_0_snoc. cbn [join]. rewrite H1. rewrite <- app_assoc. cbn [app]. rewrite pairs_snoc, map_app. reflexivity.
  Qed.
End Prank.

(** ** In f64 *)
Section Trend64.
  Variable log10 : f64 -> f64.
  #[local] Instance N117 : Num f64 := IEEE log10.
  #[local] Instance O117 : OrdNum f64 := IEEEOrd log10.
  Local Open Scope R_scope.
  Notation fexp64 := (SpecFloat.fexp 53 1024).
  Notation rnd r := (round radix2 fexp64 (round_mode mode_NE) r).
  #[local] Instance vexp117 : Valid_exp fexp64.
  Proof. apply fexp_correct. reflexivity. Qed.

  (** Finite values, each at least [s] above (below) the one before. *)
  Definition climbs_by (s : R) (xs : list f64) : Prop := Forall (fun x => is_finite x = true) xs /\
    forall i a b, nth_error xs i = Some a -> nth_error xs (S i) = Some b -> B2R a + s <= B2R b.
  Definition drops_by (s : R) (xs : list f64) : Prop := Forall (fun x => is_finite x = true) xs /\
    forall i a b, nth_error xs i = Some a -> nth_error xs (S i) = Some b -> B2R b + s <= B2R a.

  (** infinite, or at least [2^e] *)
  Definition big (e : Z) (z : f64) : Prop := z = B754_infinity false \/ (is_finite z = true /\ bpow radix2 e <= B2R z).
  Definition zeroish (z : f64) : Prop := exists s, z = B754_zero s.

  Lemma big_rounded e z r : (-1074 <= e)%Z -> rounded z r -> bpow radix2 e <= r -> big e z.
  Proof.
    intros E Q L. assert (G : bpow radix2 e <= rnd r).
    { apply round_ge_generic; auto with typeclass_instances. apply generic_format_bpow. unfold SpecFloat.fexp, SpecFloat.emin. lia. }
    pose proof (bpow_gt_0 radix2 e) as P. pose proof (bpow_gt_0 radix2 1024) as T.
    destruct Q as [(Fz & Ez & _)|[[-> H]|[-> H]]]; [right; split; [exact Fz|rewrite Ez; exact G]|left; reflexivity|]. exfalso. revert H. apply Rlt_not_le. apply Rlt_trans with 0; [apply Ropp_lt_gt_0_contravar, T|]. eapply Rlt_le_trans; [exact P|exact G].
  Qed.
  Lemma big_pos e z : big e z -> pz z.
  Proof.
    intros [->|[Fz L]]; right; [reflexivity|]. pose proof (bpow_gt_0 radix2 e) as P.
    destruct z as [s|s| |s m x Hb]; try discriminate; cbn [B2R] in *; [lra|]. destruct s; [|reflexivity]. exfalso. cbn [cond_Zopp Z.opp] in *.
    assert (F2R (beta := radix2) {| Fnum := Z.neg m; Fexp := x |} <= 0) by (apply F2R_le_0; cbn; lia). lra.
  Qed.
  Lemma big_plus e x y : (-1074 <= e)%Z -> big e x -> pz y -> is_nan y = false -> big e (Bplus mode_NE x y).
  Proof.
    intros E [->|[Fx Lx]] Py Ny.
    - left. destruct y as [s|s| |s m z Hb]; try discriminate; try reflexivity. destruct Py as [?|Py]; [discriminate|]. cbn in Py. subst s. reflexivity.
    - destruct (is_finite y) eqn:Fy.
      + eapply big_rounded; [exact E|apply plus_rounded; assumption|]. pose proof (B2R_pz y Py). lra.
      + left. destruct y as [s|s| |s m z Hb]; try discriminate. destruct Py as [?|Py]; [discriminate|]. cbn in Py. subst s.
        destruct x as [t|t| |t m z Hb]; try discriminate; reflexivity.
  Qed.
  Lemma big_plus_r e x y : (-1074 <= e)%Z -> big e y -> pz x -> is_nan x = false -> big e (Bplus mode_NE x y).
  Proof.
    intros E [->|[Fy Ly]] Px Nx.
    - left. destruct x as [s|s| |s m z Hb]; try discriminate; try reflexivity. destruct Px as [?|Px]; [discriminate|]. cbn in Px. subst s. reflexivity.
    - destruct (is_finite x) eqn:Fx.
      + eapply big_rounded; [exact E|apply plus_rounded; assumption|]. pose proof (B2R_pz x Px). lra.
      + left. destruct x as [s|s| |s m z Hb]; try discriminate. destruct Px as [?|Px]; [discriminate|]. cbn in Px. subst s.
        destruct y as [t|t| |t m z Hb]; try discriminate; reflexivity.
  Qed.
  Lemma big_nan e z : big e z -> is_nan z = false.
  Proof. intros [->|[Fz _]]; [reflexivity|]. destruct z; try discriminate; reflexivity. Qed.
  Lemma big_inf_mult e (y : f64) : big e y -> Bmult mode_NE (B754_infinity false) y = B754_infinity false /\ Bmult mode_NE y (B754_infinity false) = B754_infinity false.
  Proof.
    intros [->|[Fy Ly]]; [split; reflexivity|]. pose proof (bpow_gt_0 radix2 e) as P.
    destruct y as [s|s| |s m z Hb]; try discriminate; cbn [B2R] in Ly; [lra|]. destruct s; [|split; reflexivity]. exfalso. cbn [SpecFloat.cond_Zopp Z.opp] in *.
    assert (F2R (beta := radix2) {| Fnum := Z.neg m; Fexp := z |} <= 0) by (apply F2R_le_0; cbn; lia). lra.
  Qed.
  Lemma big_mult e k x y : (-1074 <= e - k)%Z -> big (- k) x -> big e y -> big (e - k) (Bmult mode_NE x y).
  Proof.
    intros E Bx By. pose proof (big_inf_mult _ _ Bx) as [_ Ix]. pose proof (big_inf_mult _ _ By) as [Iy _].
    destruct Bx as [->|[Fx Lx]]; [left; exact Iy|]. destruct By as [->|[Fy Ly]]; [left; exact Ix|].
    eapply big_rounded; [lia|apply mult_rounded; assumption|]. unfold Z.sub. rewrite bpow_plus. rewrite Rmult_comm.
    apply Rmult_le_compat; try assumption; apply bpow_ge_0.
  Qed.
  Lemma inf_div (y : f64) : 0 < B2R y -> Bdiv mode_NE (B754_infinity false) y = B754_infinity false.
  Proof.
    intros P. destruct y as [s|s| |s m z Hb]; try discriminate; cbn [B2R] in P; try lra. destruct s; [|reflexivity]. exfalso. cbn [SpecFloat.cond_Zopp Z.opp] in *.
    assert (F2R (beta := radix2) {| Fnum := Z.neg m; Fexp := z |} <= 0) by (apply F2R_le_0; cbn; lia). lra.
  Qed.
  Lemma big_div e k (x : f64) len : (-1074 <= e - k)%Z -> (0 <= k <= 53)%Z -> (1 <= len)%nat -> (Z.of_nat len <= 2 ^ k)%Z -> big e x -> big (e - k) (fdiv x (fnat len)).
  Proof.
    intros E K L B. destruct (fin_fZ log10 (Z.of_nat len)) as [Fl El].
    { assert (2 ^ k <= 2 ^ 53)%Z by (apply Z.pow_le_mono_r; lia). lia. }
    change (fZ (Z.of_nat len) : f64) with (fnat len : f64) in *.
    assert (P : 1 <= B2R (fnat len : f64) <= bpow radix2 k).
    { rewrite El. split; [apply IZR_le; lia|]. rewrite <- IZR_Zpower by lia. apply IZR_le. exact B. }
    revert Fl P. clear El. generalize (fnat len : f64). intros y Fl P. change (fdiv x y) with (Bdiv mode_NE x y).
    intros [->|[Fx Lx]].
    - left. apply inf_div. apply Rlt_le_trans with 1; [lra|apply P].
    - eapply big_rounded; [lia|apply div_rounded; [assumption..|apply Rlt_le_trans with 1; [lra|apply P]]|]. unfold Z.sub. rewrite bpow_plus, bpow_opp. unfold Rdiv.
      apply Rmult_le_compat; [apply bpow_ge_0|left; apply Rinv_0_lt_compat, bpow_gt_0|exact Lx|]. apply Rinv_le; [apply Rlt_le_trans with 1; [lra|apply P]|apply P].
  Qed.
  Lemma big_weaken e e' z : (e' <= e)%Z -> big e z -> big e' z.
  Proof. intros L [->|[Fz H]]; [left; reflexivity|right]. split; [exact Fz|]. eapply Rle_trans; [apply bpow_le, L|exact H]. Qed.

  Lemma sum_big e (l : list f64) : (-1074 <= e)%Z -> l <> [] -> Forall (big e) l -> big e (fsum l).
  Proof.
    intros E NE H. destruct l as [|x l]; [congruence|]. inversion H as [|? ? Hx Hl]; subst. unfold fsum. cbn [fold_left].
    assert (B0 : big e (fadd (fZ 0) x)) by (apply big_plus_r; [exact E|exact Hx|right; reflexivity|reflexivity]).
    revert B0. generalize (fadd (fZ 0 : f64) x). clear H Hx NE. induction Hl as [|y l Hy Hl IH]; intros a Ha; cbn [fold_left]; [exact Ha|].
    apply IH. apply big_plus; [exact E|exact Ha|eapply big_pos, Hy|eapply big_nan, Hy].
  Qed.
  (** the smoothing weight and its complement *)
  Lemma weight len : (2 <= len)%nat -> (Z.of_nat len <= 2 ^ 53)%Z ->
    is_finite (rma_alpha_of len : f64) = true /\ big (- (53)) (rma_alpha_of len : f64) /\ is_finite (fsub (fZ 1) (rma_alpha_of len) : f64) = true /\ big (- (1)) (fsub (fZ 1) (rma_alpha_of len) : f64).
  Proof.
    intros L B. destruct (fin_fZ log10 1 ltac:(lia)) as [F1 E1]. destruct (fin_fZ log10 (Z.of_nat len) ltac:(lia)) as [Fl El].
    change (fZ (Z.of_nat len) : f64) with (fnat len : f64) in *. change (NF64 log10) with N117 in *.
    assert (P : 2 <= B2R (fnat len : f64)) by (rewrite El; apply IZR_le; lia).
    assert (P0 : 0 < B2R (fnat len : f64)) by (apply Rlt_le_trans with 2; [lra|exact P]).
    assert (DR : rounded (rma_alpha_of len : f64) (1 / B2R (fnat len : f64))).
    { rewrite <- E1. exact (div_rounded (fZ 1 : f64) (fnat len : f64) F1 Fl P0). }
    assert (HA : rnd (1 / B2R (fnat len : f64)) <= bpow radix2 (-1)).
    { apply round_le_generic; auto with typeclass_instances; [apply generic_format_bpow; unfold SpecFloat.fexp, SpecFloat.emin; lia|].
      change (bpow radix2 (-1)) with (/ 2). unfold Rdiv. rewrite Rmult_1_l. apply Rinv_le; [lra|exact P]. }
    assert (FA : is_finite (rma_alpha_of len : f64) = true /\ 0 <= B2R (rma_alpha_of len : f64) <= / 2).
    { destruct DR as [(FA & EA & _)|[[_ H]|[_ H]]].
      - split; [exact FA|]. rewrite EA. split; [|exact HA]. apply rnd_0_ge. unfold Rdiv. rewrite Rmult_1_l. left. apply Rinv_0_lt_compat, P0.
      - exfalso. assert (bpow radix2 1024 <= bpow radix2 (-1)) by (eapply Rle_trans; [exact H|exact HA]). assert (bpow radix2 (-1) < bpow radix2 1024) by (apply bpow_lt; lia). lra.
      - exfalso. revert H. apply Rlt_not_le. apply Rlt_le_trans with 0; [apply Ropp_lt_gt_0_contravar, bpow_gt_0|]. apply rnd_0_ge.
        unfold Rdiv. rewrite Rmult_1_l. left. apply Rinv_0_lt_compat, P0. }
    destruct FA as [FA HA']. split; [exact FA|]. split; [|split].
    - change (- (53))%Z with (0 - 53)%Z. apply (big_div 0 53 (fZ 1 : f64) len); [lia|lia|lia|exact B|]. right. split; [exact F1|]. rewrite E1. cbn. lra.
    - apply (minus_within log10 (fZ 0) (fZ 1)); [exact F1|exact FA|]. change (NF64 log10) with N117 in *. rewrite E1. change (B2R (fZ 0 : f64)) with 0.
      match type of HA' with 0 <= ?x <= _ => match type of E1 with ?y = _ => change (0 <= 1 - x <= y); rewrite E1; lra end end.
    - eapply big_rounded; [lia|exact (minus_rounded (fZ 1 : f64) (rma_alpha_of len : f64) F1 FA)|]. rewrite E1.
      match type of HA' with 0 <= ?x <= _ => change (/ 2 <= 1 - x) end. lra.
  Qed.
  (** the smoothing of values at least [2^e] is at least [2^(e-53)] *)
  Lemma rma_big e len vs z : (-1020 <= e)%Z -> (2 <= len)%nat -> (Z.of_nat len <= 2 ^ 53)%Z -> Forall (big e) vs ->
    ema_val (rma_alpha_of len) len vs = Some z -> big (e - 53) z.
  Proof.
    intros E L B H. unfold ema_val. destruct (Nat.eqb_spec len 1); [lia|].
    destruct (Nat.ltb_spec (length vs) len); [discriminate|]. intros Q; injection Q as <-.
    destruct (weight len L B) as (_ & BA & _ & BB).
    rewrite <- (firstn_skipn len vs) in H. apply Forall_app in H. destruct H as [H1 H2].
    assert (B0 : big (e - 53) (fdiv (fsum (firstn len vs)) (fnat len))).
    { apply big_div; [lia|lia|lia|exact B|]. apply sum_big; [lia| |exact H1]. intros Q. apply (f_equal (@length _)) in Q. rewrite firstn_length in Q. cbn [length] in Q. lia. }
    assert (G : forall l a, big (e - 53) a -> Forall (big e) l ->
      big (e - 53) (fold_left (fun e v : f64 => fadd (fmul (rma_alpha_of len) v) (fmul (fsub (fZ 1) (rma_alpha_of len)) e)) l a)).
    { induction l as [|x l IH]; intros a Ha Hl; cbn [fold_left]; [exact Ha|]. inversion Hl; subst.
      assert (BM : big (e - 53 - 1) (fmul (fsub (fZ 1) (rma_alpha_of len)) a)) by (apply (big_mult (e - 53) 1); [lia|exact BB|exact Ha]).
      apply IH; [|assumption]. apply big_plus; [lia|apply (big_mult e 53); [lia|exact BA|assumption]|eapply big_pos, BM|eapply big_nan, BM]. }
    exact (G _ _ B0 H2).
  Qed.
  (** zeros: the smoothing is plus zero *)
  Lemma big_zero k (x : f64) s : is_finite x = true -> big k x -> fmul x (B754_zero s : f64) = B754_zero s.
  Proof.
    intros Fx H. pose proof (big_pos _ _ H) as [N|N]; [rewrite (big_nan _ _ H) in N; discriminate|].
    destruct x as [t|t| |t m z Hb]; try discriminate; cbn in N; subst t; destruct s; reflexivity.
  Qed.
  Lemma rma_zero len vs : (2 <= len)%nat -> (Z.of_nat len <= 2 ^ 53)%Z -> (len <= length vs)%nat -> Forall zeroish vs ->
    ema_val (rma_alpha_of len) len vs = Some (B754_zero false).
  Proof.
    intros L B LV H. unfold ema_val. destruct (Nat.eqb_spec len 1); [lia|].
    destruct (Nat.ltb_spec (length vs) len); [lia|]. f_equal.
    destruct (weight len L B) as (FA & BA & FB & BB).
    rewrite <- (firstn_skipn len vs) in H. apply Forall_app in H. destruct H as [H1 H2].
    assert (S0 : forall l, Forall zeroish l -> fold_left fadd l (B754_zero false : f64) = B754_zero false).
    { induction 1 as [|x l [s ->] _ IH]; [reflexivity|]. cbn [fold_left]. rewrite <- IH at 2. f_equal. destruct s; reflexivity. }
    assert (E0 : fdiv (fsum (firstn len vs)) (fnat len : f64) = B754_zero false).
    { unfold fsum. change (fZ 0 : f64) with (B754_zero false : f64). rewrite S0 by exact H1. destruct (ofZ_pos (Z.of_nat len) ltac:(lia)) as (Fl & El & Sl).
      change (fnat len : f64) with (f64_ofZ (Z.of_nat len)). assert (Q : B2R (f64_ofZ (Z.of_nat len)) <> 0) by (rewrite El; apply IZR_neq; lia). revert Fl Sl Q.
      generalize (f64_ofZ (Z.of_nat len)). intros y Fy Sy Ny. destruct y as [t|t| |t m z Hb]; try discriminate; [cbn in Ny; lra|]. cbn in Sy. subst t. reflexivity. }
    assert (G : forall l a, a = B754_zero false -> Forall zeroish l ->
      fold_left (fun e v : f64 => fadd (fmul (rma_alpha_of len) v) (fmul (fsub (fZ 1) (rma_alpha_of len)) e)) l a = B754_zero false).
    { induction l as [|x l IH]; intros a Ha Hl; cbn [fold_left]; [exact Ha|]. inversion Hl as [|? ? [s Hs] Hl']; subst. apply IH; [|exact Hl'].
      rewrite (big_zero _ _ s FA BA), (big_zero _ _ false FB BB). destruct s; reflexivity. }
    exact (G _ _ E0 H2).
  Qed.

  (** gains and losses of a rising or falling series *)
  Lemma by_pairs s xs : climbs_by s xs -> Forall (fun ab => is_finite (fst ab) = true /\ is_finite (snd ab) = true /\ B2R (fst ab) + s <= B2R (snd ab)) (pairs xs).
  Proof.
    intros [Fx C]. induction xs as [|a xs IH]; [constructor|]. destruct xs as [|b xs]; [constructor|]. cbn [pairs]. inversion Fx as [|? ? Fa Fr]; subst. inversion Fr; subst.
    constructor; [split; [exact Fa|]; split; [assumption|apply (C 0%nat); reflexivity]|]. apply IH; [exact Fr|]. intros i u v U V. apply (C (S i)); assumption.
  Qed.
  Lemma by_pairs' s xs : drops_by s xs -> Forall (fun ab => is_finite (fst ab) = true /\ is_finite (snd ab) = true /\ B2R (snd ab) + s <= B2R (fst ab)) (pairs xs).
  Proof.
    intros [Fx C]. induction xs as [|a xs IH]; [constructor|]. destruct xs as [|b xs]; [constructor|]. cbn [pairs]. inversion Fx as [|? ? Fa Fr]; subst. inversion Fr; subst.
    constructor; [split; [exact Fa|]; split; [assumption|apply (C 0%nat); reflexivity]|]. apply IH; [exact Fr|]. intros i u v U V. apply (C (S i)); assumption.
  Qed.
  Definition gain_of (a b : f64) : f64 := fmax (fsub b a) (fZ 0).
  Definition loss_of (a b : f64) : f64 := fneg (fmin (fsub b a) (fZ 0)).
  Lemma gains_are xs : present (gains (map Some xs)) = map (fun ab => gain_of (fst ab) (snd ab)) (pairs xs).
  Proof. apply (present_pairs rsi_gain gain_of); intros; reflexivity. Qed.
  Lemma losses_are xs : present (losses (map Some xs)) = map (fun ab => loss_of (fst ab) (snd ab)) (pairs xs).
  Proof. apply (present_pairs rsi_loss loss_of); intros; reflexivity. Qed.
  Lemma big_max e (z : f64) : big e z -> fmax z (fZ 0 : f64) = z /\ zeroish (fneg (fmin z (fZ 0 : f64))).
  Proof.
    intros H. assert (Q : fltb (fZ 0 : f64) z = true).
    { destruct H as [->|[Fz L]]; [reflexivity|]. apply (ltb_zero_fin z Fz). eapply Rlt_le_trans; [apply bpow_gt_0|exact L]. }
    assert (N : fisnan z = false) by (apply (big_nan _ _ H)).
    assert (Q' : fltb z (fZ 0 : f64) = false) by (apply le_not_lt, lt_le, Q).
    unfold fmax, fmin. rewrite N, Q, Q'. change (fisnan (fZ 0 : f64)) with false. cbn [negb]. split; [reflexivity|]. exists true. reflexivity.
  Qed.
  Lemma neg_min e (z : f64) : big e (fneg z) -> zeroish (fmax z (fZ 0 : f64)) /\ fneg (fmin z (fZ 0 : f64)) = fneg z.
  Proof.
    intros H. assert (Q : fltb z (fZ 0 : f64) = true).
    { change (fneg z) with (Bopp z) in H. destruct H as [E|[Fz L]].
      - assert (z = B754_infinity true) as -> by (destruct z as [s|s| |s m x Hb]; try discriminate; injection E as E; destruct s; [reflexivity|discriminate]). reflexivity.
      - assert (Fz' : is_finite z = true) by (destruct z; try discriminate; reflexivity). apply (ltb_zero_fin z Fz'). rewrite B2R_Bopp in L. pose proof (bpow_gt_0 radix2 e). 
        apply Ropp_lt_cancel. rewrite Ropp_0. eapply Rlt_le_trans; eassumption. }
    assert (N : fisnan z = false) by (apply (lt_nonnan z (fZ 0)), Q).
    assert (Q' : fltb (fZ 0 : f64) z = false) by (apply le_not_lt, lt_le, Q).
    unfold fmax, fmin. rewrite N, Q, Q'. change (fisnan (fZ 0 : f64)) with false. cbn [negb]. split; [exists false; reflexivity|reflexivity].
  Qed.

  Lemma rise_big (a b : f64) : is_finite a = true -> is_finite b = true -> B2R a + bpow radix2 (-900) <= B2R b -> big (-900) (fsub b a).
  Proof. intros Fa Fb H. eapply big_rounded; [lia|exact (minus_rounded b a Fb Fa)|]. lra. Qed.
  Lemma fall_big (a b : f64) : is_finite a = true -> is_finite b = true -> B2R b + bpow radix2 (-900) <= B2R a -> big (-900) (fneg (fsub b a)).
  Proof.
    intros Fa Fb H. change (big (-900) (Bopp (Bminus mode_NE b a))). pose proof (minus_rounded b a Fb Fa) as Q.
    apply (big_rounded (-900) _ (B2R a - B2R b)); [lia| |lra].
    assert (E : rnd (B2R a - B2R b) = - rnd (B2R b - B2R a)).
    { replace (B2R a - B2R b) with (- (B2R b - B2R a)) by lra. apply round_NE_opp. }
    unfold rounded in *. rewrite E. destruct Q as [(Fz & Ez & Lz)|[[-> H']|[-> H']]].
    - left. split; [destruct (Bminus mode_NE b a); try discriminate; reflexivity|]. split; [rewrite B2R_Bopp, Ez; reflexivity|rewrite Rabs_Ropp; exact Lz].
    - right. right. split; [reflexivity|]. apply Ropp_le_contravar, H'.
    - right. left. split; [reflexivity|]. apply Ropp_le_cancel. rewrite Ropp_involutive. exact H'.
  Qed.
  Lemma rising_changes xs : climbs_by (bpow radix2 (-900)) xs -> Forall (big (-900)) (present (gains (map Some xs))) /\ Forall zeroish (present (losses (map Some xs))).
  Proof.
    intros C. pose proof (by_pairs _ _ C) as P. rewrite gains_are, losses_are, !Forall_map. split; (eapply Forall_impl; [|exact P]); intros [a b] (Fa & Fb & H); cbn [fst snd] in *;
      pose proof (rise_big a b Fa Fb H) as Q; destruct (big_max _ _ Q) as [Q1 Q2]; [change (big (-900) (fmax (fsub b a) (fZ 0))); rewrite Q1; exact Q|exact Q2].
  Qed.
  Lemma falling_changes xs : drops_by (bpow radix2 (-900)) xs -> Forall zeroish (present (gains (map Some xs))) /\ Forall (big (-900)) (present (losses (map Some xs))).
  Proof.
    intros C. pose proof (by_pairs' _ _ C) as P. rewrite gains_are, losses_are, !Forall_map. split; (eapply Forall_impl; [|exact P]); intros [a b] (Fa & Fb & H); cbn [fst snd] in *;
      pose proof (fall_big a b Fa Fb H) as Q; destruct (neg_min _ _ Q) as [Q1 Q2]; [exact Q1|change (big (-900) (fneg (fmin (fsub b a) (fZ 0)))); rewrite Q2; exact Q].
  Qed.
  Lemma climbs_by_firstn k s xs : climbs_by s xs -> climbs_by s (firstn k xs).
  Proof.
    intros [N C]. split; [rewrite Forall_forall in *; intros x I; apply N; eapply firstn_In, I|].
    intros i a b A B. rewrite PropBacktest.nth_error_firstn in A, B. destruct (i <? k)%nat; [|discriminate]. destruct (S i <? k)%nat; [|discriminate]. apply (C i); assumption.
  Qed.
  Lemma drops_by_firstn k s xs : drops_by s xs -> drops_by s (firstn k xs).
  Proof.
    intros [N C]. split; [rewrite Forall_forall in *; intros x I; apply N; eapply firstn_In, I|].
    intros i a b A B. rewrite PropBacktest.nth_error_firstn in A, B. destruct (i <? k)%nat; [|discriminate]. destruct (S i <? k)%nat; [|discriminate]. apply (C i); assumption.
  Qed.
  Lemma changes_length (g : f64 -> f64 -> f64) xs : length (map (fun ab => g (fst ab) (snd ab)) (pairs xs)) = (length xs - 1)%nat.
  Proof. rewrite map_length. apply pairs_length. Qed.
  Lemma rsi_short len (h : list f64) : (2 <= len)%nat -> (length h <= len)%nat -> rsi_out len (map Some h) = None.
  Proof.
    intros L LH. unfold rsi_out, ema_out. rewrite gains_are. unfold ema_val. destruct (Nat.eqb_spec len 1); [lia|]. rewrite changes_length.
    destruct (Nat.ltb_spec (length h - 1) len); [reflexivity|lia].
  Qed.
  Lemma ema_some len (vs : list f64) : (len <= length vs)%nat -> (2 <= len)%nat -> exists z, ema_val (rma_alpha_of len) len vs = Some z.
  Proof. intros H L. unfold ema_val. destruct (Nat.eqb_spec len 1); [lia|]. destruct (Nat.ltb_spec (length vs) len); [lia|]. eexists; reflexivity. Qed.

  (** Over a rising series of [f64] the Relative Strength Index is exactly 100, over a falling one exactly 0. *)
  Theorem C117_rsi_rising len c xs : (2 <= len)%nat -> (Z.of_nat len <= 2 ^ 53)%Z -> climbs_by (bpow radix2 (-900)) xs ->
    run_new (rsi_new len) rsi_step c (map Some xs) = Ok (each_prefix (after_len len (fZ 100 : f64)) xs).
  Proof.
    intros L B C. rewrite (makes_run _ _ _ _ c _ (rsi_makes len L) (warmed_map_Some xs)). f_equal.
    apply outputs_eq; [rewrite length_each_prefix, map_length; reflexivity|]. intros i o Ho. apply nth_each in Ho. destruct Ho as [Li ->]. rewrite map_length in Li.
    rewrite firstn_map. pose proof (climbs_by_firstn (S i) _ _ C) as C'. assert (LH : length (firstn (S i) xs) = S i) by (rewrite firstn_length; lia).
    revert C' LH. generalize (firstn (S i) xs). intros h C' LH. unfold after_len. destruct (Nat.ltb_spec len (length h)); [|apply rsi_short; lia].
    destruct (rising_changes h C') as [HG HL]. unfold rsi_out, ema_out.
    destruct (ema_some len (present (gains (map Some h)))) as [u U]; [rewrite gains_are, changes_length; lia|exact L|].
    pose proof (rma_big (-900) len _ u ltac:(lia) L B HG U) as BU. rewrite U, rma_zero; [|exact L|exact B|rewrite losses_are, changes_length; lia|exact HL].
    cbn [rsi_val]. f_equal. assert (E : fdiv u (B754_zero false : f64) = B754_infinity false).
    { pose proof (big_pos _ _ BU) as [N|N]; [rewrite (big_nan _ _ BU) in N; discriminate|]. destruct BU as [->|[Fu Lu]]; [reflexivity|].
      pose proof (bpow_gt_0 radix2 (-900 - 53)) as P. destruct u as [s|s| |s m x Hb]; try discriminate; [cbn [B2R] in Lu; lra|]. cbn in N. subst s. reflexivity. }
    rewrite E. apply B2SF_inj. vm_compute. reflexivity.
  Qed.
  Theorem C117_rsi_falling len c xs : (2 <= len)%nat -> (Z.of_nat len <= 2 ^ 53)%Z -> drops_by (bpow radix2 (-900)) xs ->
    run_new (rsi_new len) rsi_step c (map Some xs) = Ok (each_prefix (after_len len (fZ 0 : f64)) xs).
  Proof.
    intros L B C. rewrite (makes_run _ _ _ _ c _ (rsi_makes len L) (warmed_map_Some xs)). f_equal.
    apply outputs_eq; [rewrite length_each_prefix, map_length; reflexivity|]. intros i o Ho. apply nth_each in Ho. destruct Ho as [Li ->]. rewrite map_length in Li.
    rewrite firstn_map. pose proof (drops_by_firstn (S i) _ _ C) as C'. assert (LH : length (firstn (S i) xs) = S i) by (rewrite firstn_length; lia).
    revert C' LH. generalize (firstn (S i) xs). intros h C' LH. unfold after_len. destruct (Nat.ltb_spec len (length h)); [|apply rsi_short; lia].
    destruct (falling_changes h C') as [HG HL]. unfold rsi_out, ema_out.
    destruct (ema_some len (present (losses (map Some h)))) as [u U]; [rewrite losses_are, changes_length; lia|exact L|].
    pose proof (rma_big (-900) len _ u ltac:(lia) L B HL U) as BU. rewrite U, rma_zero; [|exact L|exact B|rewrite gains_are, changes_length; lia|exact HG].
    cbn [rsi_val]. f_equal. assert (E : fdiv (B754_zero false : f64) u = B754_zero false).
    { pose proof (big_pos _ _ BU) as [N|N]; [rewrite (big_nan _ _ BU) in N; discriminate|]. destruct BU as [->|[Fu Lu]]; [reflexivity|].
      pose proof (bpow_gt_0 radix2 (-900 - 53)) as P. destruct u as [s|s| |s m x Hb]; try discriminate; [cbn [B2R] in Lu; lra|]. cbn in N. subst s. reflexivity. }
    rewrite E. apply B2SF_inj. vm_compute. reflexivity.
  Qed.
End Trend64.

(** ** Averages of a rising series *)
Section Means.
  Local Open Scope R_scope.
  Definition rising_reals (vs : list R) : Prop := forall i a b, nth_error vs i = Some a -> nth_error vs (S i) = Some b -> a < b.
  Definition falling_reals (vs : list R) : Prop := forall i a b, nth_error vs i = Some a -> nth_error vs (S i) = Some b -> b < a.
  Lemma rising_lt vs i j a b : rising_reals vs -> (i < j)%nat -> nth_error vs i = Some a -> nth_error vs j = Some b -> a < b.
  Proof.
    intros C L. revert a b. induction L as [|j L IH]; intros a b Ha Hb; [apply (C i a b Ha Hb)|].
    destruct (nth_error vs j) as [m|] eqn:E; [|apply nth_error_None in E; assert (Q : nth_error vs (S j) <> None) by congruence; apply nth_error_Some in Q; lia].
    apply Rlt_trans with m; [apply IH; auto|apply (C j); assumption].
  Qed.
  Lemma Rsum_ge (l : list R) t : (forall x, In x l -> t <= x) -> INR (length l) * t <= Rsum l.
  Proof.
    induction l as [|x l IH]; intros H; [cbn; lra|]. change (x :: l) with ([x] ++ l). rewrite Rsum_app. change (length ([x] ++ l)) with (S (length l)). rewrite S_INR.
    specialize (IH (fun y I => H y (or_intror I))). specialize (H x (or_introl eq_refl)). change (Rsum [x]) with (x + 0). lra.
  Qed.
  Lemma Rsum_lt (l : list R) t : l <> [] -> (forall x, In x l -> x < t) -> Rsum l < INR (length l) * t.
  Proof.
    induction l as [|x l IH]; intros NE H; [congruence|]. change (x :: l) with ([x] ++ l). rewrite Rsum_app. change (length ([x] ++ l)) with (S (length l)). rewrite S_INR.
    pose proof (H x (or_introl eq_refl)) as Hx. change (Rsum [x]) with (x + 0). destruct l as [|y l]; [change (Rsum []) with 0; change (INR (length (@nil R))) with 0; lra|].
    specialize (IH ltac:(discriminate) (fun y I => H y (or_intror I))). lra.
  Qed.
  Lemma Rsum_opp (l : list R) : Rsum (map Ropp l) = - Rsum l.
  Proof.
    induction l as [|x l IH]; [cbn; lra|]. change (x :: l) with ([x] ++ l). rewrite map_app, !Rsum_app, IH. cbn [map]. change (Rsum [- x]) with (- x + 0). change (Rsum [x]) with (x + 0). lra.
  Qed.
  (** The mean of the last [n] is above the mean of the last [m > n]. *)
  Lemma means_rising n m vs : (1 <= n < m)%nat -> (m <= length vs)%nat -> rising_reals vs -> Rsum (lastn m vs) / INR m < Rsum (lastn n vs) / INR n.
  Proof.
    intros L LM C. assert (E : lastn m vs = firstn (m - n) (lastn m vs) ++ lastn n vs).
    { rewrite <- (firstn_skipn (m - n) (lastn m vs)) at 1. f_equal. apply nth_error_ext. intros k. rewrite nth_skipn, !nth_window by lia. f_equal. lia. }
    assert (PN : 0 < INR n) by (apply lt_0_INR; lia). assert (PM : INR n < INR m) by (apply lt_INR; lia).
    destruct (nth_error vs (length vs - n)) as [t|] eqn:ET; [|apply nth_error_None in ET; lia].
    assert (G1 : INR n * t <= Rsum (lastn n vs)).
    { assert (LL : length (lastn n vs) = n) by (rewrite length_lastn; lia). rewrite <- LL at 1. apply Rsum_ge. intros x I. apply In_nth_error in I. destruct I as [k I]. rewrite nth_window in I by lia.
      destruct k as [|k]; [rewrite Nat.add_0_r, ET in I; injection I as ->; lra|]. left. eapply (rising_lt vs); [exact C| |exact ET|exact I]. lia. }
    assert (G2 : Rsum (firstn (m - n) (lastn m vs)) < INR (m - n) * t).
    { assert (LF : length (firstn (m - n) (lastn m vs)) = (m - n)%nat) by (rewrite firstn_length, length_lastn; lia). rewrite <- LF at 2. apply Rsum_lt.
      - intros Q. rewrite Q in LF. cbn in LF. lia.
      - intros x I. apply In_nth_error in I. destruct I as [k I]. rewrite PropBacktest.nth_error_firstn in I. destruct (Nat.ltb_spec k (m - n)); [|discriminate]. rewrite nth_window in I by lia.
        eapply (rising_lt vs); [exact C| |exact I|exact ET]. lia. }
    rewrite E, Rsum_app. rewrite minus_INR in G2 by lia. set (a := Rsum (firstn (m - n) (lastn m vs))) in *. set (b := Rsum (lastn n vs)) in *.
    apply Rmult_lt_reg_r with (INR m * INR n); [nra|]. replace ((a + b) / INR m * (INR m * INR n)) with ((a + b) * INR n) by (field; lra).
    replace (b / INR n * (INR m * INR n)) with (b * INR m) by (field; lra). nra.
  Qed.
End Means.

Section Cross.
  Variable log10 : f64 -> f64.
  #[local] Instance N117x : Num f64 := IEEE log10.
  Local Open Scope R_scope.
  Lemma mean_full n (ps : list f64) i (v : R) : (1 <= n)%nat -> nth_error (each_prefix (mean_of n) (vals (map Some ps))) i = Some (Some v) ->
    (n <= length (firstn (S i) ps))%nat /\ v = Rsum (lastn n (map B2R (firstn (S i) ps))) / INR n.
  Proof.
    intros L H. apply nth_each in H. destruct H as [Li H]. unfold vals in *. rewrite !map_length in Li. rewrite map_map, firstn_map in H. unfold mean_of, window in H.
    rewrite map_length in H. destruct (Nat.leb_spec n (length (firstn (S i) ps))) as [Q|Q]; [|discriminate]. split; [exact Q|].
    assert (E : forall l : list f64, map (fun x => option_map B2R (Some x)) l = map Some (map B2R l)) by (intros l; rewrite map_map; reflexivity).
    rewrite E, lastn_map', all_some_map in H. cbn [option_map] in H. injection H as ->. reflexivity.
  Qed.
  Lemma climbs_reals s ps k : 0 < s -> climbs_by s ps -> rising_reals (map B2R (firstn k ps)).
  Proof.
    intros P C. apply (climbs_by_firstn k) in C. destruct C as [_ C]. intros i a b A B. rewrite nth_error_map in A, B.
    specialize (C i).
    match type of A with option_map _ ?t = _ => change (nth_error (firstn k ps) i) with t in C; destruct t as [x|]; [|discriminate] end.
    match type of B with option_map _ ?t = _ => change (nth_error (firstn k ps) (S i)) with t in C; destruct t as [y|]; [|discriminate] end.
    apply some_eq in A. apply some_eq in B. subst a b. specialize (C x y eq_refl eq_refl). lra.
  Qed.
  (** While prices of whole ticks keep rising, the shorter average stays above the longer one:
      the crossover strategy never signals. *)
  Theorem C117_cross_rising e A n m c ps : (-1000 <= e <= 960)%Z -> (1 <= n < m)%nat -> (0 <= A)%Z -> (4 * (A + 1) * Z.of_nat n * Z.of_nat m < 2 ^ 53)%Z ->
    whole e A (map Some ps) -> climbs_by (bpow radix2 e) ps ->
    exists os os', run_new (sma_new n) sma_step c (map Some ps) = Ok os /\ run_new (sma_new m) sma_step c (map Some ps) = Ok os' /\
      run cross_strategy_step c cross_new (combine os os') = Ok (map (fun _ => None) ps).
  Proof.
    intros E L A0 LB W C. destruct (C115_cross log10 e E A n m c (map Some ps) ltac:(lia) ltac:(lia) A0 LB W) as (os & os' & sigs & R1 & R2 & R3 & LL & LS).
    exists os, os'. split; [exact R1|]. split; [exact R2|]. etransitivity; [exact R3|]. f_equal. rewrite length_each_prefix in LL. unfold vals in LL. rewrite !map_length in LL.
    apply nth_error_ext. intros i. rewrite nth_error_map. destruct (nth_error sigs i) as [o|] eqn:Eo.
    2:{ apply nth_error_None in Eo. destruct (nth_error ps i) eqn:Ep; [|reflexivity]. apply len_lt in Ep. lia. }
    assert (Li : (i < length ps)%nat) by (apply len_lt in Eo; lia). destruct (nth_error ps i) as [p|] eqn:Ep; [|apply nth_error_None in Ep; lia]. cbn [option_map]. f_equal.
    destruct (LS i o Eo) as [HL HS]. pose proof (bpow_gt_0 radix2 e) as P.
    assert (G : forall k x y, nth_error (each_prefix (mean_of n) (vals (map Some ps))) k = Some (Some x) -> nth_error (each_prefix (mean_of m) (vals (map Some ps))) k = Some (Some y) -> y < x).
    { intros k x y X Y. apply mean_full in X; [|lia]. apply mean_full in Y; [|lia]. destruct X as [_ ->], Y as [Q ->]. apply means_rising; [lia|rewrite map_length; exact Q|]. eapply climbs_reals; eassumption. }
    destruct o as [[|]|]; [exfalso|exfalso|reflexivity].
    - destruct (proj1 HL eq_refl) as (j & x & y & x' & y' & _ & _ & _ & X & Y & _ & Q). specialize (G j x' y' X Y). lra.
    - destruct (proj1 HS eq_refl) as (j & x & y & x' & y' & _ & X & Y & _ & _ & Q & _). specialize (G i x y X Y). lra.
  Qed.
End Cross.

Section Falling.
  Local Open Scope R_scope.
  Lemma means_falling n m vs : (1 <= n < m)%nat -> (m <= length vs)%nat -> falling_reals vs -> Rsum (lastn n vs) / INR n < Rsum (lastn m vs) / INR m.
  Proof.
    intros L LM C. assert (Q : rising_reals (map Ropp vs)).
    { intros i a b A B. rewrite nth_error_map in A, B. specialize (C i). destruct (nth_error vs i) as [x|]; [|discriminate]. destruct (nth_error vs (S i)) as [y|]; [|discriminate].
      injection A as <-. injection B as <-. specialize (C x y eq_refl eq_refl). lra. }
    pose proof (means_rising n m (map Ropp vs) L ltac:(rewrite map_length; exact LM) Q) as H. rewrite !lastn_map', !Rsum_opp in H.
    unfold Rdiv in *. rewrite <- !Ropp_mult_distr_l in H. lra.
  Qed.
End Falling.

Section Cross2.
  Variable log10 : f64 -> f64.
  #[local] Instance N117y : Num f64 := IEEE log10.
  #[local] Instance O117y : OrdNum f64 := IEEEOrd log10.
  Local Open Scope R_scope.
  Lemma drops_reals s ps k : 0 < s -> drops_by s ps -> falling_reals (map B2R (firstn k ps)).
  Proof.
    intros P C. apply (drops_by_firstn k) in C. destruct C as [_ C]. intros i a b A B. rewrite nth_error_map in A, B.
    specialize (C i).
    match type of A with option_map _ ?t = _ => change (nth_error (firstn k ps) i) with t in C; destruct t as [x|]; [|discriminate] end.
    match type of B with option_map _ ?t = _ => change (nth_error (firstn k ps) (S i)) with t in C; destruct t as [y|]; [|discriminate] end.
    apply some_eq in A. apply some_eq in B. subst a b. specialize (C x y eq_refl eq_refl). lra.
  Qed.
  Theorem C117_cross_falling e A n m c ps : (-1000 <= e <= 960)%Z -> (1 <= n < m)%nat -> (0 <= A)%Z -> (4 * (A + 1) * Z.of_nat n * Z.of_nat m < 2 ^ 53)%Z ->
    whole e A (map Some ps) -> drops_by (bpow radix2 e) ps ->
    exists os os', run_new (sma_new n) sma_step c (map Some ps) = Ok os /\ run_new (sma_new m) sma_step c (map Some ps) = Ok os' /\
      run cross_strategy_step c cross_new (combine os os') = Ok (map (fun _ => None) ps).
  Proof.
    intros E L A0 LB W C. destruct (C115_cross log10 e E A n m c (map Some ps) ltac:(lia) ltac:(lia) A0 LB W) as (os & os' & sigs & R1 & R2 & R3 & LL & LS).
    exists os, os'. split; [exact R1|]. split; [exact R2|]. etransitivity; [exact R3|]. f_equal. rewrite length_each_prefix in LL. unfold vals in LL. rewrite !map_length in LL.
    apply nth_error_ext. intros i. rewrite nth_error_map. destruct (nth_error sigs i) as [o|] eqn:Eo.
    2:{ apply nth_error_None in Eo. destruct (nth_error ps i) eqn:Ep; [|reflexivity]. apply len_lt in Ep. lia. }
    assert (Li : (i < length ps)%nat) by (apply len_lt in Eo; lia). destruct (nth_error ps i) as [p|] eqn:Ep; [|apply nth_error_None in Ep; lia]. cbn [option_map]. f_equal.
    destruct (LS i o Eo) as [HL HS]. pose proof (bpow_gt_0 radix2 e) as P.
    assert (G : forall k x y, nth_error (each_prefix (mean_of n) (vals (map Some ps))) k = Some (Some x) -> nth_error (each_prefix (mean_of m) (vals (map Some ps))) k = Some (Some y) -> x < y).
    { intros k x y X Y. apply mean_full in X; [|lia]. apply mean_full in Y; [|lia]. destruct X as [_ ->], Y as [Q ->]. apply means_falling; [lia|rewrite map_length; exact Q|]. eapply drops_reals; eassumption. }
    destruct o as [[|]|]; [exfalso|exfalso|reflexivity].
    - destruct (proj1 HL eq_refl) as (j & x & y & x' & y' & _ & X & Y & _ & _ & Q & _). specialize (G i x y X Y). lra.
    - destruct (proj1 HS eq_refl) as (j & x & y & x' & y' & _ & _ & _ & X & Y & _ & Q). specialize (G j x' y' X Y). lra.
  Qed.

  (** The per cent ranks 100 and 0 are exact. *)
  Theorem C117_hundred len : (1 <= len)%nat -> (Z.of_nat len <= 2 ^ 53)%Z -> fmul (fdiv (fnat len) (fnat len)) (fZ 100) = (fZ 100 : f64) /\ fmul (fdiv (fnat 0) (fnat len)) (fZ 100) = (fZ 0 : f64).
  Proof.
    intros L B. destruct (ofZ_pos (Z.of_nat len) ltac:(lia)) as (Fl & El & Sl). change (fnat len : f64) with (f64_ofZ (Z.of_nat len)).
    assert (P : 1 <= B2R (f64_ofZ (Z.of_nat len))) by (rewrite El; apply IZR_le; lia).
    assert (D1 : fdiv (f64_ofZ (Z.of_nat len)) (f64_ofZ (Z.of_nat len)) = (fZ 1 : f64)).
    { assert (E1 : B2R (f64_ofZ 1) = 1) by (apply (f64_ofZ_correct 1); lia). change (fZ 1 : f64) with (f64_ofZ 1).
      set (y := f64_ofZ (Z.of_nat len)) in *. destruct (div_within log10 (f64_ofZ 1) (f64_ofZ 1) y y Fl Fl) as [Fd Wd].
      - intros Z. rewrite Z in P. lra.
      - rewrite E1. unfold Rdiv. rewrite Rinv_r by (intros Z; rewrite Z in P; lra). lra.
      - change (fdiv y y) with (Bdiv mode_NE y y) in *. apply B2R_Bsign_inj; [exact Fd|reflexivity| |].
        + rewrite E1 in *. apply Rle_antisym; apply Wd.
        + pose proof (div_pz log10 y y (or_intror Sl) (or_intror Sl)) as [Q|Q]; [|exact Q].
          change (is_nan (Bdiv mode_NE y y) = true) in Q. exfalso. revert Fd Q. destruct (Bdiv mode_NE y y); discriminate. }
    split.
    - rewrite D1. apply B2SF_inj. vm_compute. reflexivity.
    - assert (D0 : fdiv (fnat 0) (f64_ofZ (Z.of_nat len)) = (fZ 0 : f64)).
      { revert Fl Sl P. clear. generalize (f64_ofZ (Z.of_nat len)). intros y Fy Sy P. destruct y as [t|t| |t m z Hb]; try discriminate; [cbn in P; lra|]. cbn in Sy. subst t. reflexivity. }
      rewrite D0. reflexivity.
  Qed.
  Theorem C117_prank_rising_f64 len (c : ctx f64) xs : (1 <= len)%nat -> (Z.of_nat len <= 2 ^ 53)%Z -> c_index c = 0%nat -> climbs xs ->
    run_new (prank_new len) prank_step c (map Some xs) = Ok (each_prefix (after_len len (fZ 100)) xs).
  Proof. intros L B Z C. rewrite (C117_prank_rising len c xs L Z C). destruct (C117_hundred len L B) as [E _]. rewrite E. reflexivity. Qed.
  Theorem C117_prank_falling_f64 len (c : ctx f64) xs : (1 <= len)%nat -> (Z.of_nat len <= 2 ^ 53)%Z -> c_index c = 0%nat -> drops xs ->
    run_new (prank_new len) prank_step c (map Some xs) = Ok (each_prefix (after_len len (fZ 0)) xs).
  Proof. intros L B Z C. rewrite (C117_prank_falling len c xs L Z C). destruct (C117_hundred len L B) as [_ E]. rewrite E. reflexivity. Qed.
End Cross2.

(** ** Concrete series *)
Definition up117 : list f64 := map q [1; 3; 4; 9; 10]%Z.
Definition down117 : list f64 := map q [9; 7; 6; 2; 1]%Z.
Lemma q_val z : (Z.abs z <= 2 ^ 53)%Z -> B2R (q z) = IZR z.
Proof. intros H. apply (f64_ofZ_correct z H). Qed.
Example C117_up : climbs_by (bpow radix2 0) up117.
Proof.
  split; [repeat (constructor; [reflexivity|]); constructor|]. intros i a b A B. change (bpow radix2 0) with 1%R.
  assert (Q : forall za zb, a = q za -> b = q zb -> (Z.abs za <= 2 ^ 53)%Z -> (Z.abs zb <= 2 ^ 53)%Z -> (za + 1 <= zb)%Z -> (B2R a + 1 <= B2R b)%R).
  { intros za zb -> -> Ha Hb L. rewrite !q_val by assumption. rewrite <- plus_IZR. apply IZR_le, L. }
  unfold up117 in A, B. destruct i as [|[|[|[|i]]]]; cbn [map nth_error] in A, B; try (apply some_eq in A; apply some_eq in B; eapply Q; [symmetry; exact A|symmetry; exact B|lia|lia|lia]);
    destruct i; discriminate.
Qed.
Example C117_down : drops_by (bpow radix2 0) down117.
Proof.
  split; [repeat (constructor; [reflexivity|]); constructor|]. intros i a b A B. change (bpow radix2 0) with 1%R.
  assert (Q : forall za zb, a = q za -> b = q zb -> (Z.abs za <= 2 ^ 53)%Z -> (Z.abs zb <= 2 ^ 53)%Z -> (zb + 1 <= za)%Z -> (B2R b + 1 <= B2R a)%R).
  { intros za zb -> -> Ha Hb L. rewrite !q_val by assumption. rewrite <- plus_IZR. apply IZR_le, L. }
  unfold down117 in A, B. destruct i as [|[|[|[|i]]]]; cbn [map nth_error] in A, B; try (apply some_eq in A; apply some_eq in B; eapply Q; [symmetry; exact A|symmetry; exact B|lia|lia|lia]);
    destruct i; discriminate.
Qed.
Example C117_climbs_ex : climbs up117.
Proof.
  split; [unfold PTa4.no_nan; repeat (constructor; [reflexivity|]); constructor|]. intros i a b A B. unfold up117 in A, B.
  destruct i as [|[|[|[|i]]]]; cbn [map nth_error] in A, B; try (apply some_eq in A; apply some_eq in B; subst a b; vm_compute; reflexivity); destruct i; discriminate.
Qed.
Example C117_drops_ex : drops down117.
Proof.
  split; [unfold PTa4.no_nan; repeat (constructor; [reflexivity|]); constructor|]. intros i a b A B. unfold down117 in A, B.
  destruct i as [|[|[|[|i]]]]; cbn [map nth_error] in A, B; try (apply some_eq in A; apply some_eq in B; subst a b; vm_compute; reflexivity); destruct i; discriminate.
Qed.
Example C117_runs :
  gives same_opt (run_new (highest_new 3) highest_step ctx_bare (map Some up117)) (None :: None :: qs [4; 9; 10]%Z) = true /\
  gives same_opt (run_new (lowest_new 3) lowest_step ctx_bare (map Some up117)) (None :: None :: qs [1; 3; 4]%Z) = true /\
  gives same_opt (run_new (rsi_new 2) rsi_step ctx_bare (map Some up117)) (None :: None :: qs [100; 100; 100]%Z) = true /\
  gives same_opt (run_new (rsi_new 2) rsi_step ctx_bare (map Some down117)) (None :: None :: qs [0; 0; 0]%Z) = true /\
  gives same_opt (run_new (prank_new 3) prank_step ctx_bare (map Some up117)) (None :: None :: None :: qs [100; 100]%Z) = true /\
  gives same_opt (run_new (prank_new 3) prank_step ctx_bare (map Some down117)) (None :: None :: None :: qs [0; 0]%Z) = true.
Proof. vm_compute. repeat split; reflexivity. Qed.
(** The steps must not be minute: over four values rising by the smallest [f64] the gains of
    the last step are rounded away and the index is NaN. *)
Definition tiny117 : f64 := @B754_finite 53 1024 false 1 (-1074) eq_refl.
Definition steps117 : list f64 := [fZ 0; tiny117; fadd tiny117 tiny117; fadd tiny117 (fadd tiny117 tiny117)].
Example C117_tiny : climbs steps117 /\
  match run_new (rsi_new 2) rsi_step ctx_bare (map Some steps117) with
  | Ok [None; None; Some u; Some v] => is_nan u = false /\ is_nan v = true
  | _ => False
  end.
Proof.
  split.
  - split; [unfold PTa4.no_nan, steps117; repeat (constructor; [reflexivity|]); constructor|]. intros i a b A B. unfold steps117 in A, B.
    destruct i as [|[|[|i]]]; cbn [nth_error] in A, B; try (apply some_eq in A; apply some_eq in B; subst a b; vm_compute; reflexivity); destruct i; discriminate.
  - vm_compute. split; reflexivity.
Qed.
