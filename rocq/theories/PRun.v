(** * PRun: lemmas about histories and about driving components. *)
From Verif Require Export Spec.

(** ** Lists *)
Lemma prefixes_nil A : prefixes (@nil A) = [].
Proof. reflexivity. Qed.

(** A prefix-accumulating form, convenient for induction. *)
Fixpoint scan {A B} (f : list A -> B) (h xs : list A) : list B :=
  match xs with
  | [] => []
  | x :: t => f (h ++ [x]) :: scan f (h ++ [x]) t
  end.

Lemma scan_map {A B} (f : list A -> B) h xs :
  scan f h xs = map (fun k => f (h ++ firstn (S k) xs)) (seq 0 (length xs)).
Proof.
  revert h; induction xs as [|x xs IH]; intros h; [reflexivity|].
  cbn [scan length seq map]. f_equal.
  rewrite IH, <- seq_shift, map_map. apply map_ext; intros k.
  rewrite <- app_assoc. reflexivity.
Qed.

Lemma each_prefix_scan {A B} (f : list A -> B) xs : each_prefix f xs = scan f [] xs.
Proof. unfold each_prefix, prefixes. rewrite map_map, scan_map. reflexivity. Qed.

Lemma scan_ext {A B} (f g : list A -> B) h xs :
  (forall p, f p = g p) -> scan f h xs = scan g h xs.
Proof. intros E; revert h; induction xs as [|x xs IH]; intros h; cbn; [|rewrite E, IH]; reflexivity. Qed.

Lemma each_prefix_ext {A B} (f g : list A -> B) xs :
  (forall p, f p = g p) -> each_prefix f xs = each_prefix g xs.
Proof. intros E; apply map_ext; exact E. Qed.

Lemma length_each_prefix {A B} (f : list A -> B) xs : length (each_prefix f xs) = length xs.
Proof. unfold each_prefix, prefixes; rewrite !map_length, seq_length; reflexivity. Qed.

Lemma each_prefix_snoc {A B} (f : list A -> B) xs x :
  each_prefix f (xs ++ [x]) = each_prefix f xs ++ [f (xs ++ [x])].
Proof.
  unfold each_prefix, prefixes. rewrite app_length, Nat.add_1_r, seq_S, !map_app; cbn [map].
  rewrite Nat.add_0_l. f_equal.
  - f_equal. apply map_ext_in; intros k Hk. apply in_seq in Hk.
    rewrite firstn_app. replace (S k - length xs) with 0 by lia. cbn. apply app_nil_r.
  - rewrite firstn_all2; [reflexivity|]. rewrite app_length; cbn; lia.
Qed.

Lemma each_prefix_map {A B C} (g : B -> C) (f : list A -> B) xs :
  map g (each_prefix f xs) = each_prefix (fun p => g (f p)) xs.
Proof. apply map_map. Qed.

Lemma in_prefixes {A} (xs p : list A) :
  In p (prefixes xs) <-> exists k, k < length xs /\ p = firstn (S k) xs.
Proof.
  unfold prefixes; rewrite in_map_iff; split.
  - intros (k & <- & Hk); apply in_seq in Hk; exists k; split; [lia|reflexivity].
  - intros (k & Hk & ->); exists k; split; [reflexivity|apply in_seq; lia].
Qed.

(** A prefix of a mapped history is a mapped prefix. *)
Lemma prefixes_map {A B} (g : A -> B) xs : prefixes (map g xs) = map (map g) (prefixes xs).
Proof.
  unfold prefixes. rewrite map_length, map_map. apply map_ext; intros k; apply firstn_map.
Qed.

Lemma each_prefix_of_map {A B C} (f : list B -> C) (g : A -> B) xs :
  each_prefix f (map g xs) = each_prefix (fun p => f (map g p)) xs.
Proof. unfold each_prefix. rewrite prefixes_map, map_map. reflexivity. Qed.

(** The history at each call of an inner component fed with [each_prefix g]. *)
Lemma prefixes_each_prefix {A B} (g : list A -> B) xs :
  prefixes (each_prefix g xs) = map (each_prefix g) (prefixes xs).
Proof.
  induction xs as [|x xs IH] using rev_ind; [reflexivity|].
  rewrite each_prefix_snoc.
  assert (P : forall C (l : list C) y, prefixes (l ++ [y]) = prefixes l ++ [l ++ [y]]).
  { intros C l y. pose proof (@each_prefix_snoc C _ (fun p => p) l y) as E.
    unfold each_prefix in E. rewrite !map_id in E. exact E. }
  rewrite !P, map_app, IH. cbn [map]. rewrite each_prefix_snoc. reflexivity.
Qed.

Lemma each_prefix_each_prefix {A B C} (f : list B -> C) (g : list A -> B) xs :
  each_prefix f (each_prefix g xs) = each_prefix (fun p => f (each_prefix g p)) xs.
Proof. unfold each_prefix at 1. rewrite prefixes_each_prefix, map_map. reflexivity. Qed.

Lemma combine_each_prefix {A B C} (f : list A -> B) (g : list A -> C) xs :
  combine (each_prefix f xs) (each_prefix g xs) = each_prefix (fun p => (f p, g p)) xs.
Proof.
  unfold each_prefix. induction (prefixes xs) as [|p ps IH]; [reflexivity|]. cbn; rewrite IH; reflexivity.
Qed.

Lemma newest_snoc {A} (l : list A) x : newest (l ++ [x]) = Some x.
Proof.
  unfold newest. rewrite app_length; cbn [length]. rewrite nth_error_app2 by lia.
  replace (length l + 1 - 1 - length l) with 0 by lia. reflexivity.
Qed.

Lemma ago_0_snoc {A} (l : list A) x : ago 0 (l ++ [x]) = Some x.
Proof.
  unfold ago. rewrite app_length; cbn [length].
  destruct (Nat.ltb_spec 0 (length l + 1)); [|lia].
  rewrite Nat.sub_0_r. change (length l + 1) with (length l + length [x]).
  rewrite <- app_length. apply newest_snoc.
Qed.

Lemma ago_S_snoc {A} (l : list A) x k : ago (S k) (l ++ [x]) = ago k l.
Proof.
  unfold ago. rewrite app_length; cbn [length].
  destruct (Nat.ltb_spec (S k) (length l + 1)), (Nat.ltb_spec k (length l)); try lia; [|reflexivity].
  rewrite nth_error_app1 by lia. f_equal; lia.
Qed.

Lemma lastn_all {A} n (l : list A) : length l <= n -> lastn n l = l.
Proof. intros H; unfold lastn. replace (length l - n) with 0 by lia; reflexivity. Qed.

Lemma length_lastn {A} n (l : list A) : length (lastn n l) = Nat.min n (length l).
Proof. unfold lastn; rewrite skipn_length; lia. Qed.

Lemma lastn_0 {A} (l : list A) : lastn 0 l = [].
Proof. unfold lastn. rewrite Nat.sub_0_r. apply skipn_all. Qed.

Lemma lastn_S_snoc {A} n (l : list A) x : lastn (S n) (l ++ [x]) = lastn n l ++ [x].
Proof.
  unfold lastn. rewrite app_length; cbn [length].
  rewrite skipn_app. replace (length l + 1 - S n) with (length l - n) by lia.
  replace (length l - n - length l) with 0 by lia. reflexivity.
Qed.

Lemma lastn_cons_full {A} n (l : list A) a :
  length l = n -> lastn n (a :: l) = l.
Proof. intros <-; unfold lastn; cbn [length]. replace (S (length l) - length l) with 1 by lia. reflexivity. Qed.

(** Split of a full window into its oldest element and the rest. *)
Lemma lastn_S_split {A} n (l : list A) : n < length l ->
  exists a, ago n l = Some a /\ lastn (S n) l = a :: lastn n l.
Proof.
  intros H. unfold ago. destruct (Nat.ltb_spec n (length l)); [|lia].
  destruct (nth_error l (length l - 1 - n)) as [a|] eqn:E.
  2:{ apply nth_error_None in E; lia. }
  exists a; split; [reflexivity|]. unfold lastn.
  apply nth_error_split in E. destruct E as (l1 & l2 & -> & L).
  rewrite app_length in *; cbn [length] in *.
  assert (L2 : length l2 = n) by lia.
  replace (length l1 + S (length l2) - S n) with (length l1) by lia.
  replace (length l1 + S (length l2) - n) with (S (length l1)) by lia.
  assert (E1 : skipn (length l1) (l1 ++ a :: l2) = a :: l2).
  { rewrite skipn_app, skipn_all, Nat.sub_diag; reflexivity. }
  assert (E2 : skipn (S (length l1)) (l1 ++ a :: l2) = l2).
  { rewrite skipn_app, skipn_all2 by lia.
    replace (S (length l1) - length l1) with 1 by lia. reflexivity. }
  rewrite E1, E2; reflexivity.
Qed.

Lemma all_some_app {A} (l1 l2 : list (option A)) :
  all_some (l1 ++ l2) = obind (all_some l1) (fun a => option_map (app a) (all_some l2)).
Proof.
  induction l1 as [|[a|] l1 IH]; cbn.
  - destruct (all_some l2); reflexivity.
  - rewrite IH. destruct (all_some l1); cbn; [|reflexivity]. destruct (all_some l2); reflexivity.
  - reflexivity.
Qed.

Lemma all_some_map_Some {A} (l : list A) : all_some (map Some l) = Some l.
Proof. induction l; cbn; [|rewrite IHl]; reflexivity. Qed.

Lemma all_some_Some {A} (l : list (option A)) v : all_some l = Some v <-> l = map Some v.
Proof.
  split; [|intros ->; apply all_some_map_Some].
  revert v; induction l as [|[a|] l IH]; cbn; intros v E.
  - inversion E; reflexivity.
  - destruct (all_some l) as [w|]; cbn in E; inversion E; subst. cbn. f_equal; apply IH; reflexivity.
  - discriminate.
Qed.

Lemma all_some_None {A} (l : list (option A)) : all_some l = None <-> In None l.
Proof.
  induction l as [|[a|] l IH]; cbn.
  - split; [discriminate|tauto].
  - destruct (all_some l); cbn.
    + split; [discriminate|]. intros [E|E]; [discriminate|]. apply IH in E; discriminate.
    + split; [|reflexivity]. intros _; right; apply IH; reflexivity.
  - split; auto.
Qed.

Lemma all_some_length {A} (l : list (option A)) v : all_some l = Some v -> length v = length l.
Proof. intros E; apply all_some_Some in E; subst; symmetry; apply map_length. Qed.

Lemma window_length {A} n (h : list (option A)) v : window n h = Some v -> length v = n.
Proof.
  unfold window. destruct (Nat.leb_spec n (length h)); [|discriminate].
  intros E; apply all_some_length in E. rewrite length_lastn in E. lia.
Qed.

Lemma firstn_In {A} n (l : list A) a : In a (firstn n l) -> In a l.
Proof. intros H; rewrite <- (firstn_skipn n l); apply in_or_app; left; exact H. Qed.
Lemma skipn_In {A} n (l : list A) a : In a (skipn n l) -> In a l.
Proof. intros H; rewrite <- (firstn_skipn n l); apply in_or_app; right; exact H. Qed.
Lemma lastn_In {A} n (l : list A) a : In a (lastn n l) -> In a l.
Proof. apply skipn_In. Qed.

(** ** Driving components *)
Section Run.
  Context {F : Type} {NF : Num F}.

  (** The context after [k] bars. *)
  Definition ctx_at (c : ctx F) (k : nat) : ctx F := ctx_set_index c (c_index c + k).

  Lemma ctx_at_0 c : ctx_at c 0 = c.
  Proof. destruct c; unfold ctx_at, ctx_set_index; cbn. f_equal; lia. Qed.
  Lemma ctx_at_S c k : ctx_advance (ctx_at c k) = ctx_at c (S k).
  Proof. unfold ctx_advance, ctx_at, ctx_set_index; cbn. f_equal; lia. Qed.
  Lemma ctx_at_index c k : c_index (ctx_at c k) = c_index c + k.
  Proof. reflexivity. Qed.
  Lemma ctx_at_data c k : c_data (ctx_at c k) = c_data c.
  Proof. reflexivity. Qed.
  Lemma ctx_at_at c j k : ctx_at (ctx_at c j) k = ctx_at c (j + k).
  Proof. unfold ctx_at, ctx_set_index; cbn. f_equal; lia. Qed.

  Context {S I O : Type}.
  Variable step : ctx F -> S -> I -> res (S * O).

  Lemma run_nil c s : run step c s [] = Ok [].
  Proof. reflexivity. Qed.
  Lemma run_cons c s x xs :
    run step c s (x :: xs) =
    ('(s', o) <- step c s x ;; os <- run step (ctx_advance c) s' xs ;; Ok (o :: os)).
  Proof.
    unfold run; cbn [run_st]. destruct (step c s x) as [[s' o]|]; [|reflexivity]. cbn.
    destruct (run_st step (ctx_advance c) s' xs) as [[s2 os]|]; reflexivity.
  Qed.

  (** If the output at each call is [f] of the history, under an invariant
      relating history and state, the run is [each_prefix f]. *)
  Lemma run_inv (inv : list I -> S -> Prop) (f : list I -> O) c s0 xs :
    inv [] s0 ->
    (forall h s x, inv h s -> (exists t, xs = h ++ x :: t) ->
       exists s', step (ctx_at c (length h)) s x = Ok (s', f (h ++ [x])) /\ inv (h ++ [x]) s') ->
    exists sf, run_st step c s0 xs = Ok (sf, each_prefix f xs) /\ inv xs sf.
  Proof.
    intros H0 Hstep. rewrite each_prefix_scan.
    assert (G : forall t h s, xs = h ++ t -> inv h s ->
      exists sf, run_st step (ctx_at c (length h)) s t = Ok (sf, scan f h t) /\ inv (h ++ t) sf).
    { induction t as [|x t IH]; intros h s E Hi.
      - exists s; cbn. rewrite app_nil_r; split; [reflexivity|exact Hi].
      - destruct (Hstep h s x Hi) as (s' & Es & Hi'); [exists t; exact E|].
        destruct (IH (h ++ [x]) s') as (sf & Er & Hf).
        + rewrite <- app_assoc; exact E.
        + exact Hi'.
        + exists sf. cbn [run_st scan]. rewrite Es; cbn [rbind].
          rewrite ctx_at_S. replace (Datatypes.S (length h)) with (length (h ++ [x]))
            by (rewrite app_length; cbn; lia).
          rewrite Er; cbn [rbind]. rewrite <- app_assoc in Hf. split; [reflexivity|exact Hf]. }
    destruct (G xs [] s0) as (sf & Er & Hf); [reflexivity|exact H0|].
    cbn [length] in Er. rewrite ctx_at_0 in Er. exists sf; split; assumption.
  Qed.

  Lemma run_spec (inv : list I -> S -> Prop) (f : list I -> O) c s0 xs :
    inv [] s0 ->
    (forall h s x, inv h s ->
       exists s', step (ctx_at c (length h)) s x = Ok (s', f (h ++ [x])) /\ inv (h ++ [x]) s') ->
    run step c s0 xs = Ok (each_prefix f xs).
  Proof.
    intros H0 Hs. destruct (@run_inv inv f c s0 xs) as (sf & E & _); [exact H0| |].
    - intros h s x Hi _; apply Hs; exact Hi.
    - unfold run; rewrite E; reflexivity.
  Qed.

  (** Runs over a concatenation. *)
  Lemma run_st_app c s xs ys :
    run_st step c s (xs ++ ys) =
    ('(s1, os) <- run_st step c s xs ;;
     '(s2, os') <- run_st step (ctx_at c (length xs)) s1 ys ;; Ok (s2, os ++ os')).
  Proof.
    revert c s; induction xs as [|x xs IH]; intros c s; cbn [run_st app length].
    - rewrite ctx_at_0; cbn. destruct (run_st step c s ys) as [[]|]; reflexivity.
    - destruct (step c s x) as [[s1 o]|]; [|reflexivity]. cbn [rbind].
      rewrite IH. replace (ctx_at (ctx_advance c) (length xs)) with (ctx_at c (Datatypes.S (length xs))).
      2:{ unfold ctx_at, ctx_advance, ctx_set_index; cbn. f_equal; lia. }
      destruct (run_st step (ctx_advance c) s1 xs) as [[s2 os]|]; [|reflexivity]. cbn [rbind].
      destruct (run_st step _ s2 ys) as [[]|]; reflexivity.
  Qed.

  Lemma run_length c s xs os : run step c s xs = Ok os -> length os = length xs.
  Proof.
    revert c s os; induction xs as [|x xs IH]; intros c s os.
    - cbn; intros E; inversion E; reflexivity.
    - rewrite run_cons. destruct (step c s x) as [[s' o]|]; [|discriminate]; cbn.
      destruct (run step (ctx_advance c) s' xs) as [os'|] eqn:E; [|discriminate]; cbn.
      intros E'; inversion E'; subst; cbn; f_equal; eapply IH; exact E.
  Qed.
End Run.

(** ** Boxes *)
Section Box.
  Context {F : Type} {NF : Num F} {S I O : Type}.
  Lemma ostep_box (step : ctx F -> S -> I -> res (S * O)) c s x :
    ostep c (box step s) x =
    match step c s x with Ok (s', o) => Ok (box step s', o) | Panic => Panic end.
  Proof. reflexivity. Qed.

  Lemma run_box (step : ctx F -> S -> I -> res (S * O)) c s xs :
    run ostep c (box step s) xs = run step c s xs.
  Proof.
    revert c s; induction xs as [|x xs IH]; intros c s; [reflexivity|].
    rewrite !run_cons, ostep_box. destruct (step c s x) as [[s' o]|]; cbn; [|reflexivity].
    rewrite IH. reflexivity.
  Qed.
End Box.

(** ** Pipelines: a composite run is the composition of the runs of its parts.
    Used by [pipe] below: destruct every inner call, rewrite with the
    induction hypothesis. *)
Lemma rbind_ok {A B} (a : A) (k : A -> res B) : rbind (Ok a) k = k a.
Proof. reflexivity. Qed.
Lemma rbind_panic {A B} (k : A -> res B) : rbind (@Panic A) k = Panic.
Proof. reflexivity. Qed.
Lemma rbind_assoc {A B C} (r : res A) (k : A -> res B) (l : B -> res C) :
  rbind (rbind r k) l = rbind r (fun a => rbind (k a) l).
Proof. destruct r; reflexivity. Qed.
Lemma rbind_panic_r {A B} (r : res A) : rbind r (fun _ => @Panic B) = Panic.
Proof. destruct r; reflexivity. Qed.
