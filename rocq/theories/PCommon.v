(** * PCommon: context, caches, validator, sources. *)
From Verif Require Export PRun.

(** ** Caches *)
Section Caches.
  Context {T : Type}.
  Implicit Types (h xs : list T).

  Lemma wc_pushes n h xs : fold_left wc_push xs (mkWC n h) = mkWC n (h ++ xs).
  Proof.
    revert h; induction xs as [|x xs IH]; intros h; cbn; [rewrite app_nil_r; reflexivity|].
    unfold wc_push at 2; cbn. rewrite IH, <- app_assoc. reflexivity.
  Qed.

  Lemma wc_all_lastn n h : wc_all (mkWC n h) = lastn n h.
  Proof.
    unfold wc_all, lastn; cbn [wc_vals wc_len]. destruct (Nat.ltb_spec (length h) n); [|reflexivity].
    replace (length h - n) with 0 by lia. reflexivity.
  Qed.

  Lemma nth_error_rev_0 h : nth_error (rev h) 0 = newest h.
  Proof.
    destruct h as [|x h] using rev_ind; [reflexivity|].
    rewrite rev_app_distr, newest_snoc; reflexivity.
  Qed.

  Lemma wc_last_newest n h : wc_last (mkWC n h) = newest h.
  Proof. unfold wc_last; cbn. apply nth_error_rev_0. Qed.

  Lemma wc_get_ago n h i : i < length h -> wc_get (mkWC n h) i = Ok (ago i h).
  Proof.
    intros H. unfold wc_get, usub, ago; cbn [wc_vals wc_len].
    destruct (Nat.leb_spec 1 (length h)); [|lia]; cbn [rbind].
    destruct (Nat.leb_spec i (length h - 1)); [|lia]; cbn [rbind].
    destruct (Nat.ltb_spec i (length h)); [reflexivity|lia].
  Qed.

  Lemma wc_get_panic n h i : length h <= i -> wc_get (mkWC n h) i = Panic.
  Proof.
    intros H. unfold wc_get, usub; cbn [wc_vals wc_len].
    destruct (Nat.leb_spec 1 (length h)); cbn [rbind]; [|reflexivity].
    destruct (Nat.leb_spec i (length h - 1)); [lia|reflexivity].
  Qed.

  Lemma wc_first_ago n h : 1 <= n ->
    wc_first (mkWC n h) = Ok (ago (n - 1) h).
  Proof.
    intros Hn. unfold wc_first; cbn [wc_vals wc_len].
    destruct (Nat.ltb_spec (length h) n).
    - unfold ago. destruct (Nat.ltb_spec (n - 1) (length h)); [lia|reflexivity].
    - unfold usub. destruct (Nat.leb_spec 1 n); [|lia]; cbn [rbind].
      apply wc_get_ago; lia.
  Qed.

  Lemma ic_pushes h xs : fold_left ic_push xs h = h ++ xs.
  Proof.
    revert h; induction xs as [|x xs IH]; intros h; cbn; [rewrite app_nil_r; reflexivity|].
    rewrite IH; unfold ic_push; rewrite <- app_assoc; reflexivity.
  Qed.

  Lemma ic_get_ago h i : ic_get h i = unwrap (ago i h).
  Proof.
    unfold ic_get, usub, ago.
    destruct (Nat.leb_spec 1 (length h)); cbn [rbind].
    - destruct (Nat.leb_spec i (length h - 1)), (Nat.ltb_spec i (length h)); try lia; reflexivity.
    - destruct (Nat.ltb_spec i (length h)); [lia|reflexivity].
  Qed.
End Caches.

Lemma wc_first_unwrapped_ago {A} n (h : list (option A)) : 1 <= n ->
  wc_first_unwrapped (mkWC n h) = Ok (join (ago (n - 1) h)).
Proof. intros Hn; unfold wc_first_unwrapped; rewrite wc_first_ago by exact Hn; reflexivity. Qed.

Lemma wc_last_unwrapped_snoc {A} n (h : list (option A)) x :
  wc_last_unwrapped (mkWC n (h ++ [x])) = x.
Proof. unfold wc_last_unwrapped; rewrite wc_last_newest, newest_snoc; reflexivity. Qed.

Lemma wc_push_eq {T} n (h : list T) x : wc_push (mkWC n h) x = mkWC n (h ++ [x]).
Proof. reflexivity. Qed.

(** ** WindowValidator *)
Section Validator.
  Context {F : Type} {NF : Num F}.

  Definition wv_inv (len i0 : nat) (h : list (option F)) (s : wvalid) : Prop :=
    wv_len s = len /\
    if wv_was_none s then
      exists h1 h2, h = h1 ++ None :: h2 /\ ~ In None h2 /\ wv_last_none s = i0 + length h1
    else ~ In None h.

  (** The validator's answer. *)
  Definition valid_window (len : nat) (h : list (option F)) : bool :=
    is_some (all_some (lastn len h)).

  Lemma wv_inv_init len i0 : 1 <= len -> exists s, wv_new len = Ok s /\ wv_inv len i0 [] s.
  Proof.
    intros H; unfold wv_new, assertb. destruct (Nat.leb_spec 1 len); [|lia]. cbn.
    eexists; split; [reflexivity|]. split; [reflexivity|]. intros [].
  Qed.

  Lemma valid_window_no_none len h : ~ In None h -> valid_window len h = true.
  Proof.
    intros H; unfold valid_window. destruct (all_some (lastn len h)) eqn:E; [reflexivity|].
    apply all_some_None in E. apply lastn_In in E. contradiction.
  Qed.

  Lemma valid_window_split len h1 (h2 : list (option F)) : ~ In None h2 ->
    valid_window len (h1 ++ None :: h2) = (len <=? length h2).
  Proof.
    intros H. unfold valid_window.
    destruct (Nat.leb_spec len (length h2)) as [L|L].
    - destruct (all_some _) eqn:E; [reflexivity|]. apply all_some_None in E. exfalso; apply H.
      unfold lastn in E. rewrite app_length in E; cbn [length] in E.
      rewrite skipn_app in E. rewrite skipn_all2 in E by lia. cbn [app] in E.
      replace (length h1 + S (length h2) - len - length h1) with (S (length h2 - len)) in E by lia.
      cbn [skipn] in E. apply skipn_In in E; exact E.
    - destruct (all_some _) eqn:E; [|reflexivity]. apply all_some_Some in E.
      exfalso. assert (I : In None (lastn len (h1 ++ None :: h2))).
      { unfold lastn. rewrite app_length; cbn [length]. rewrite skipn_app. apply in_or_app; right.
        replace (length h1 + S (length h2) - len - length h1) with 0 by lia. left; reflexivity. }
      rewrite E in I. apply in_map_iff in I. destruct I as (y & Y & _); discriminate.
  Qed.

  Lemma wv_step_spec len c h s x : wv_inv len (c_index c) h s -> 1 <= len ->
    exists s', wv_step (ctx_at c (length h)) s x = Ok (s', valid_window len (h ++ [x])) /\
               wv_inv len (c_index c) (h ++ [x]) s'.
  Proof.
    intros [El Hs] Hlen. destruct s as [l ln wn]; cbn in El, Hs; subst l.
    unfold wv_step; cbn [wv_len wv_last_none wv_was_none]. destruct x as [v|].
    - destruct wn; cbn [negb].
      + destruct Hs as (h1 & h2 & -> & Hn & ->).
        rewrite ctx_at_index, app_length; cbn [length]. unfold usub.
        destruct (Nat.leb_spec (c_index c + length h1) (c_index c + (length h1 + S (length h2)))); [|lia].
        cbn [rbind]. eexists; split.
        * f_equal. f_equal. rewrite <- app_assoc; cbn [app]. rewrite valid_window_split.
          -- rewrite app_length; cbn [length]. f_equal; lia.
          -- intros I; apply in_app_or in I; destruct I as [I|[I|[]]]; [contradiction|discriminate].
        * split; [reflexivity|]. cbn. exists h1, (h2 ++ [Some v]).
          rewrite <- app_assoc; cbn; repeat split.
          intros I; apply in_app_or in I; destruct I as [I|[I|[]]]; [contradiction|discriminate].
      + assert (N : ~ In None (h ++ [Some v])).
        { intros I; apply in_app_or in I; destruct I as [I|[I|[]]]; [contradiction|discriminate]. }
        eexists; split; [rewrite valid_window_no_none by exact N; reflexivity|].
        split; [reflexivity|exact N].
    - eexists; split.
      + f_equal. f_equal. rewrite valid_window_split by (intros []). cbn.
        destruct len; [lia|reflexivity].
      + split; [reflexivity|]. cbn. exists h, []. repeat split. intros [].
  Qed.

  (** C08 *)
  Lemma wv_run len c xs : 1 <= len ->
    run_new (wv_new len) wv_step c xs = Ok (each_prefix (valid_window len) xs).
  Proof.
    intros H. destruct (wv_inv_init len (c_index c) H) as (s & E & Hi).
    unfold run_new; rewrite E; cbn [rbind].
    apply (@run_spec F _ _ _ wv_step (wv_inv len (c_index c))); [exact Hi|].
    intros h s' x Hi'. apply wv_step_spec; assumption.
  Qed.

  Lemma filled_valid_window len (h : list (option F)) :
    (len <=? length h) && valid_window len h = is_some (window len h).
  Proof.
    unfold window, valid_window. destruct (len <=? length h); reflexivity.
  Qed.
End Validator.

(** ** FixNan, Position *)
Section Fix.
  Context {F : Type} {NF : Num F}.

  (** The most recent present value. *)
  Definition last_present (h : list (option F)) : option F := newest (present h).

  Lemma present_app {A} (l1 l2 : list (option A)) : present (l1 ++ l2) = present l1 ++ present l2.
  Proof. induction l1 as [|[a|] l1 IH]; cbn; [reflexivity| rewrite IH; reflexivity | exact IH]. Qed.

  Lemma fixnan_run c (xs : list (option F)) :
    run fixnan_step c fixnan_new xs = Ok (each_prefix last_present xs).
  Proof.
    apply (@run_spec F _ _ _ fixnan_step (fun h s => s = last_present h)); [reflexivity|].
    assert (E1 : forall h v, last_present (h ++ [Some v]) = Some v).
    { intros h v; unfold last_present. rewrite present_app; cbn. apply newest_snoc. }
    assert (E2 : forall h, last_present (h ++ [None]) = last_present h).
    { intros h; unfold last_present. rewrite present_app; cbn. rewrite app_nil_r; reflexivity. }
    intros h s [v|] ->; unfold fixnan_step; eexists; (split; [|reflexivity]); rewrite ?E1, ?E2; reflexivity.
  Qed.

  Lemma position_run (c : ctx F) xs :
    run position_step c position_new xs = Ok (each_prefix (fun h => length h - 1) xs).
  Proof.
    apply (@run_spec F _ _ _ position_step (fun h s => s = length h)); [reflexivity|].
    intros h s x ->; unfold position_step. exists (length h + 1).
    rewrite app_length; cbn [length]; split; [|reflexivity]. f_equal; f_equal; lia.
  Qed.
End Fix.

Lemma nth_error_firstn_lt {A} n (l : list A) i : i < n -> nth_error (firstn n l) i = nth_error l i.
Proof.
  revert l i; induction n as [|n IH]; intros l i H; [lia|].
  destruct l as [|a l]; [reflexivity|]. destruct i as [|i]; [reflexivity|]. cbn. apply IH; lia.
Qed.

(** ** Context *)
Section Context_.
  Context {F : Type} {NF : Num F}.

  Lemma ctx_new_ok (d : provider F) : p_start d <= p_end d ->
    ctx_new d = Ok (mkCtx d (p_start d) (p_end d) (p_end d - p_start d + 1) (p_start d) false).
  Proof. intros H; unfold ctx_new, usub. destruct (Nat.leb_spec (p_start d) (p_end d)); [reflexivity|lia]. Qed.

  (** The loop over a running context is a run over the remaining bars. *)
  Lemma loop_running {S I O} (step : ctx F -> S -> I -> res (S * O)) (input : nat -> I) :
    forall k c s fuel,
    c_running c = true -> c_index c + k = c_last c -> k < fuel ->
    loop fuel step input c s =
    Some (match run_st step (ctx_advance c) s (map input (seq (Datatypes.S (c_index c)) k)) with
          | Panic => Panic
          | Ok (sf, os) => Ok (ctx_at c (Datatypes.S k), sf, os)
          end).
  Proof.
    induction k as [|k IH]; intros c s fuel Hr Hk Hf; destruct fuel as [|fuel]; try lia; cbn [loop].
    - unfold ctx_next. rewrite Hr; cbn [negb].
      destruct (Nat.leb_spec (c_index c + 1) (c_last c)); [lia|]. cbn. unfold ctx_at. reflexivity.
    - unfold ctx_next. rewrite Hr; cbn [negb].
      destruct (Nat.leb_spec (c_index c + 1) (c_last c)); [|lia]. cbn [seq map run_st].
      rewrite Nat.add_1_r. change (ctx_set_index c (Datatypes.S (c_index c))) with (ctx_advance c).
      destruct (step (ctx_advance c) s (input (Datatypes.S (c_index c)))) as [[s1 o]|]; [|reflexivity].
      cbn [rbind]. rewrite IH; [|assumption|cbn;lia|lia].
      cbn [c_index ctx_advance ctx_set_index].
      destruct (run_st step _ s1 _) as [[sf os]|]; [|reflexivity]. cbn [rbind].
      do 4 f_equal. unfold ctx_at, ctx_advance, ctx_set_index; cbn. f_equal; lia.
  Qed.

  (** C01 *)
  Lemma loop_fresh {S I O} (step : ctx F -> S -> I -> res (S * O)) (input : nat -> I) d c s fuel :
    p_start d <= p_end d -> ctx_new d = Ok c -> p_end d - p_start d + 1 < fuel ->
    loop fuel step input c s =
    Some (match run_st step (ctx_set_running c true) s
                  (map input (seq (p_start d) (p_end d - p_start d + 1))) with
          | Panic => Panic
          | Ok (sf, os) => Ok (ctx_at (ctx_set_running c true) (p_end d - p_start d + 1), sf, os)
          end).
  Proof.
    intros Hle Hc Hf. rewrite ctx_new_ok in Hc by exact Hle. inversion Hc; subst c; clear Hc.
    destruct fuel as [|fuel]; [lia|]. cbn [loop]. unfold ctx_next; cbn [c_running negb].
    rewrite Nat.add_1_r; cbn [seq map run_st c_first]. unfold ctx_set_running; cbn [c_data c_first c_last c_bars c_index].
    set (c' := mkCtx d _ _ _ _ true).
    destruct (step c' s (input (p_start d))) as [[s1 o]|]; [|reflexivity]. cbn [rbind].
    rewrite loop_running with (k := p_end d - p_start d); [|reflexivity|cbn;lia|lia].
    cbn [c_index c'].
    destruct (run_st step _ s1 _) as [[sf os]|]; reflexivity.
  Qed.

  (** A step that only reports the bar index it sees. *)
  Definition index_step (c : ctx F) (_ : unit) (_ : unit) : res (unit * nat) := Ok (tt, c_index c).

  Lemma index_run c n : run index_step c tt (repeat tt n) = Ok (seq (c_index c) n).
  Proof.
    revert c; induction n as [|n IH]; intros c; [reflexivity|].
    cbn [repeat]. rewrite run_cons; cbn [index_step rbind]. rewrite IH. reflexivity.
  Qed.

  (** After the end the iterator never yields again. *)
  Lemma ctx_next_exhausted (c : ctx F) : c_running c = true -> c_last c <= c_index c ->
    exists c', ctx_next c = (c', None) /\ c_running c' = true /\ c_last c' <= c_index c'.
  Proof.
    intros Hr Hl. unfold ctx_next; rewrite Hr; cbn [negb].
    destruct (Nat.leb_spec (c_index c + 1) (c_last c)); [lia|].
    eexists; split; [reflexivity|]. cbn; split; [exact Hr|lia].
  Qed.

  (** ** Look-back, C03 *)
  Lemma ctx_prev_spec v (c : ctx F) n : c_index c < length v ->
    ctx_prev v c n = Ok (join (ago n (firstn (S (c_index c)) v))).
  Proof.
    intros H. unfold ctx_prev, ago. rewrite firstn_length_le by lia.
    destruct (Nat.ltb_spec (c_index c) n).
    - destruct (Nat.ltb_spec n (S (c_index c))); [lia|reflexivity].
    - destruct (Nat.ltb_spec n (S (c_index c))); [|lia].
      unfold vget. assert (L : c_index c - n < length v) by lia.
      destruct (nth_error v (c_index c - n)) as [x|] eqn:E; [|apply nth_error_None in E; lia].
      replace (S (c_index c) - 1 - n) with (c_index c - n) by lia.
      assert (E' : nth_error (firstn (S (c_index c)) v) (c_index c - n) = Some x).
      { rewrite nth_error_firstn_lt by lia. exact E. }
      rewrite E'. reflexivity.
  Qed.

  Lemma ctx_range_spec v (c : ctx F) len : c_index c < length v ->
    1 <= len -> len <= S (c_index c) ->
    ctx_range v c len = Ok (lastn len (firstn (S (c_index c)) v)).
  Proof.
    intros H H1 H2. unfold ctx_range, usub.
    destruct (Nat.leb_spec 1 len); [|lia]; cbn [rbind].
    destruct (Nat.leb_spec (len - 1) (c_index c)); [|lia]; cbn [rbind].
    unfold vslice. destruct (Nat.leb_spec (c_index c - (len - 1)) (c_index c + 1)); [|lia].
    destruct (Nat.leb_spec (c_index c + 1) (length v)); [|lia]. cbn [andb].
    f_equal. unfold lastn. rewrite firstn_length_le by lia.
    rewrite skipn_firstn_comm. f_equal; [lia|]. f_equal; lia.
  Qed.

  Lemma ctx_range_panic v (c : ctx F) len :
    len = 0 \/ S (c_index c) < len \/ length v <= c_index c ->
    ctx_range v c len = Panic.
  Proof.
    intros H. unfold ctx_range, usub.
    destruct (Nat.leb_spec 1 len); cbn [rbind]; [|reflexivity].
    destruct (Nat.leb_spec (len - 1) (c_index c)); cbn [rbind]; [|reflexivity].
    unfold vslice. destruct (Nat.leb_spec (c_index c - (len - 1)) (c_index c + 1)); [|reflexivity].
    destruct (Nat.leb_spec (c_index c + 1) (length v)); [lia|reflexivity].
  Qed.

  Lemma at_length_ok (c : ctx F) len : 1 <= len ->
    at_length c len = Ok (len <=? c_index c + 1).
  Proof.
    intros H; unfold at_length, usub. destruct (Nat.leb_spec 1 len); [|lia]; cbn [rbind].
    f_equal. destruct (Nat.leb_spec (len - 1) (c_index c)), (Nat.leb_spec len (c_index c + 1)); try lia; reflexivity.
  Qed.

  (** ** Reading one column per bar *)
  Lemma vget_app {A} (l1 : list A) x l2 : vget (l1 ++ x :: l2) (length l1) = Ok x.
  Proof. unfold vget. rewrite nth_error_app2, Nat.sub_diag by lia. reflexivity. Qed.
End Context_.

Lemma vget_ok {A} (l : list A) i : i < length l -> exists a, vget l i = Ok a /\ nth_error l i = Some a.
Proof.
  intros H; unfold vget. destruct (nth_error l i) as [a|] eqn:E; [exists a; split; reflexivity|].
  apply nth_error_None in E; lia.
Qed.
