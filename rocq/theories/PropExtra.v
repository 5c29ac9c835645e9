(** * PropExtra: C78 (context metadata and bar predicates), C87 (accepted
    configurations), C88 (position of an extremum), and further theorems of
    C41 and C75. *)
From Verif Require Export PropStats PropCore PropContent1.

(** ** C78 *)
Section C78.
  Context {F : Type} {NF : Num F}.
  (** A new context stands on the first bar and knows its range. *)
  Theorem C78_metadata (d : provider F) : p_start d <= p_end d ->
    exists c, ctx_new d = Ok c /\ c_first c = p_start d /\ c_last c = p_end d /\
      c_bars c = length (seq (p_start d) (p_end d - p_start d + 1)) /\ c_index c = p_start d /\ c_data c = d.
  Proof.
    intros H. unfold ctx_new, usub. destruct (Nat.leb_spec (p_start d) (p_end d)); [|lia]. cbn [rbind].
    eexists. split; [reflexivity|]. rewrite seq_length. repeat split.
  Qed.
  (** Moving through the bars changes none of that. *)
  Theorem C78_metadata_kept (c : ctx F) : let c' := fst (ctx_next c) in
    c_first c' = c_first c /\ c_last c' = c_last c /\ c_bars c' = c_bars c /\ c_data c' = c_data c.
  Proof.
    cbn zeta. unfold ctx_next. destruct (c_running c); cbn [negb]; [|repeat split].
    destruct (c_index c + 1 <=? c_last c); repeat split.
  Qed.
  (** [is_up]: the close is at least the open; a missing price panics. *)
  Theorem C78_is_up (c : ctx F) : c_index c < length (p_open (c_data c)) -> c_index c < length (p_close (c_data c)) ->
    bar_is_up c = match col_at (p_open (c_data c)) (c_index c), col_at (p_close (c_data c)) (c_index c) with
                  | Some o, Some x => Ok (fleb o x)
                  | _, _ => Panic
                  end.
  Proof.
    intros LO LC. unfold bar_is_up, bar_close, bar_open, vget, col_at.
    apply nth_error_Some in LO. apply nth_error_Some in LC.
    destruct (nth_error (p_open (c_data c)) (c_index c)) as [[o|]|]; [| |contradiction];
      (destruct (nth_error (p_close (c_data c)) (c_index c)) as [[x|]|]; [| |contradiction]); reflexivity.
  Qed.
  (** [at_length n]: at least [n] bars, counted from tick 0, up to this one. *)
  Theorem C78_at_length (c : ctx F) n : at_length c n = if n =? 0 then Panic else Ok (n <=? length (seq 0 (c_index c + 1))).
  Proof.
    unfold at_length, usub. rewrite seq_length. destruct n as [|n]; [reflexivity|].
    destruct (Nat.leb_spec 1 (S n)); [|lia]. cbn [rbind Nat.eqb]. f_equal.
    replace (S n - 1) with n by lia.
    destruct (Nat.leb_spec n (c_index c)), (Nat.leb_spec (S n) (c_index c + 1)); lia || reflexivity.
  Qed.
End C78.
Example C78_ex : rmap (fun c => c_bars c) (ctx_over bars6) = Ok 6 /\ bar_is_up ctx6 = Ok true /\
  at_length ctx6 1 = Ok true /\ at_length ctx6 2 = Ok false.
Proof. vm_compute. repeat split. Qed.

(** ** C87: which configurations are accepted *)
Definition accepted {A} (r : res A) : Prop := exists a, r = Ok a.
Lemma accepted_bind {A B} (r : res A) (f : A -> res B) (P : Prop) (Q : Prop) :
  (accepted r <-> P) -> (forall a, r = Ok a -> (accepted (f a) <-> Q)) -> (accepted (rbind r f) <-> P /\ Q).
Proof.
  intros HP HQ. destruct r as [a|].
  - cbn [rbind]. rewrite (HQ a eq_refl). split; [intros q; split; [apply HP; exists a; reflexivity|exact q]|tauto].
  - cbn [rbind]. split; [intros [b H]; discriminate|]. intros [p _]. apply HP in p. destruct p; discriminate.
Qed.
Lemma accepted_ok {A} (a : A) : accepted (Ok a) <-> True.
Proof. split; [auto|intros _; exists a; reflexivity]. Qed.
Lemma accepted_assert b : accepted (assertb b) <-> b = true.
Proof. destruct b; cbn; split; intros H; try reflexivity; try discriminate; [exists tt; reflexivity|destruct H; discriminate]. Qed.
Ltac acc :=
  match goal with
  | |- accepted (Ok _) <-> _ => apply accepted_ok
  | |- accepted (assertb _) <-> _ => apply accepted_assert
  | |- accepted (rbind _ _) <-> _ => apply accepted_bind; [acc|intros ? _; acc]
  | |- accepted ?r <-> _ => let h := r in first [progress unfold h; acc | (eassumption)]
  end.
Section C87.
  Context {F : Type} {NF : Num F}.
  Ltac solve_acc := eapply iff_trans; [acc|rewrite ?Nat.leb_le, ?Nat.ltb_lt; intuition lia].

  Lemma acc_wv len : accepted (wv_new len) <-> 1 <= len.
  Proof. unfold wv_new. solve_acc. Qed.
  Lemma acc_sma len : accepted (sma_new (F:=F) len) <-> 1 <= len.
  Proof. pose proof (acc_wv len). unfold sma_new. solve_acc. Qed.
  Lemma acc_sum len : accepted (sum_new (F:=F) len) <-> 1 <= len.
  Proof. pose proof (acc_wv len). unfold sum_new. solve_acc. Qed.
  Lemma acc_ema_alpha len a : accepted (ema_with_alpha (F:=F) len a) <-> 1 <= len.
  Proof. pose proof (acc_sma len). unfold ema_with_alpha. solve_acc. Qed.
  Lemma acc_ema len : accepted (ema_new (F:=F) len) <-> 1 <= len.
  Proof. apply acc_ema_alpha. Qed.
  Lemma acc_rma len : accepted (rma_new (F:=F) len) <-> 1 <= len.
  Proof. pose proof (acc_ema_alpha len (fdiv (fZ 1) (fnat len))). unfold rma_new. solve_acc. Qed.
  Lemma acc_swma : accepted (swma_new (F:=F)) <-> True.
  Proof. pose proof (acc_wv 4). unfold swma_new. solve_acc. Qed.
  Lemma acc_wma len : accepted (wma_new (F:=F) len) <-> 1 <= len.
  Proof. pose proof (acc_wv len). unfold wma_new. solve_acc. Qed.
  Lemma acc_change len : accepted (change_new (F:=F) len) <-> 1 <= len.
  Proof. unfold change_new. solve_acc. Qed.
  Lemma acc_roc len : accepted (roc_new (F:=F) len) <-> 1 <= len.
  Proof. unfold roc_new. solve_acc. Qed.
  Lemma acc_dev len : accepted (dev_new (F:=F) len) <-> 1 <= len.
  Proof. pose proof (acc_sma len). unfold dev_new. solve_acc. Qed.
  Lemma acc_stdev len b : accepted (stdev_new (F:=F) len b) <-> 1 <= len.
  Proof. pose proof (acc_sma len). unfold stdev_new. solve_acc. Qed.
  Lemma acc_highest len : accepted (highest_new (F:=F) len) <-> 1 <= len.
  Proof. unfold highest_new. solve_acc. Qed.
  Lemma acc_lowest len : accepted (lowest_new (F:=F) len) <-> 1 <= len.
  Proof. unfold lowest_new. solve_acc. Qed.
  Lemma acc_hbars len : accepted (highest_bars_new len) <-> 1 <= len.
  Proof. unfold highest_bars_new. solve_acc. Qed.
  Lemma acc_lbars len : accepted (lowest_bars_new len) <-> 1 <= len.
  Proof. unfold lowest_bars_new. solve_acc. Qed.
  Lemma acc_prank len : accepted (prank_new (F:=F) len) <-> 1 <= len.
  Proof. unfold prank_new. solve_acc. Qed.
  Lemma acc_stoch len : accepted (stoch_new (F:=F) len) <-> 1 <= len.
  Proof. unfold stoch_new. solve_acc. Qed.
  Lemma acc_atr len : accepted (atr_new (F:=F) len) <-> 1 <= len.
  Proof. pose proof (acc_rma len). unfold atr_new. solve_acc. Qed.
  Lemma acc_rsi len : accepted (rsi_new (F:=F) len) <-> 2 <= len.
  Proof. pose proof (acc_rma len). unfold rsi_new. solve_acc. Qed.

  (** The building blocks: at least 1, the Rsi at least 2. *)
  Theorem C87_ta_lengths len b :
    (accepted (sma_new (F:=F) len) <-> 1 <= len) /\ (accepted (sum_new (F:=F) len) <-> 1 <= len) /\
    (accepted (ema_new (F:=F) len) <-> 1 <= len) /\ (accepted (rma_new (F:=F) len) <-> 1 <= len) /\
    (accepted (wma_new (F:=F) len) <-> 1 <= len) /\ (accepted (change_new (F:=F) len) <-> 1 <= len) /\
    (accepted (roc_new (F:=F) len) <-> 1 <= len) /\ (accepted (dev_new (F:=F) len) <-> 1 <= len) /\
    (accepted (stdev_new (F:=F) len b) <-> 1 <= len) /\ (accepted (highest_new (F:=F) len) <-> 1 <= len) /\
    (accepted (lowest_new (F:=F) len) <-> 1 <= len) /\ (accepted (highest_bars_new len) <-> 1 <= len) /\
    (accepted (lowest_bars_new len) <-> 1 <= len) /\ (accepted (prank_new (F:=F) len) <-> 1 <= len) /\
    (accepted (stoch_new (F:=F) len) <-> 1 <= len) /\ (accepted (atr_new (F:=F) len) <-> 1 <= len) /\
    (accepted (wv_new len) <-> 1 <= len) /\ (accepted (rsi_new (F:=F) len) <-> 2 <= len).
  Proof.
    repeat match goal with |- _ /\ _ => split end;
      first [apply acc_sma|apply acc_sum|apply acc_ema|apply acc_rma|apply acc_wma|apply acc_change|apply acc_roc|apply acc_dev
            |apply acc_stdev|apply acc_highest|apply acc_lowest|apply acc_hbars|apply acc_lbars|apply acc_prank|apply acc_stoch
            |apply acc_atr|apply acc_wv|apply acc_rsi].
  Qed.
  Theorem C87_ma kind len : accepted (ma_new (F:=F) kind len) <-> (kind <> SWMA -> 1 <= len).
  Proof.
    unfold ma_new. destruct kind.
    - pose proof (acc_sma len). eapply iff_trans; [acc|]. intuition discriminate.
    - pose proof (acc_ema len). eapply iff_trans; [acc|]. intuition discriminate.
    - pose proof (acc_rma len). eapply iff_trans; [acc|]. intuition discriminate.
    - pose proof acc_swma. eapply iff_trans; [acc|]. intuition discriminate.
  Qed.

  (** The indicators. *)
  Theorem C87_indicators (src : any_src) (mult x : F) a b d e :
    (accepted (aroon_new a) <-> 1 <= a) /\
    (accepted (bb_new src a mult) <-> 1 <= a) /\
    (accepted (cmf_new (F:=F) a) <-> 1 <= a) /\
    (accepted (cks_new a b x) <-> 1 <= a /\ 1 <= b) /\
    (accepted (cmo_new src a) <-> 2 <= a) /\
    (accepted (chop_new (F:=F) a) <-> 1 <= a) /\
    (accepted (cci_new src a) <-> 1 <= a) /\
    (accepted (crsi_new src a b d) <-> 2 <= a /\ 2 <= b /\ 1 <= d) /\
    (accepted (cop_new src a b d) <-> 1 <= a /\ 1 <= b /\ 1 <= d) /\
    (accepted (dmi_new (F:=F) a b) <-> 1 <= a /\ 1 <= b) /\
    (accepted (don_new (F:=F) a) <-> 1 <= a) /\
    (accepted (rsii_new src a) <-> 2 <= a) /\
    (accepted (rvgi_new (F:=F) a) <-> 1 <= a) /\
    (accepted (rvoli_new src a b) <-> 1 <= a /\ 1 <= b) /\
    (accepted (srsi_new src a b d e) <-> 2 <= a /\ 1 <= b /\ 1 <= d /\ 1 <= e) /\
    (accepted (uo_new (F:=F) a b d) <-> 1 <= a /\ 1 <= b /\ 1 <= d) /\
    (accepted (vortex_new (F:=F) a) <-> 1 <= a) /\
    (accepted (wpr_new src a) <-> 1 <= a).
  Proof.
    pose proof acc_sma. pose proof acc_sum. pose proof acc_ema. pose proof acc_rma. pose proof acc_swma. pose proof acc_wma.
    pose proof acc_roc. pose proof acc_dev. pose proof acc_stdev. pose proof acc_highest. pose proof acc_lowest.
    pose proof acc_hbars. pose proof acc_lbars. pose proof acc_prank. pose proof acc_stoch. pose proof acc_atr. pose proof acc_rsi.
    repeat match goal with |- _ /\ _ => split end;
    match goal with |- accepted ?r <-> _ => let h := fresh in unfold aroon_new, bb_new, cmf_new, cks_new, cmo_new, chop_new,
      cci_new, crsi_new, cop_new, dmi_new, don_new, rsii_new, rvgi_new, rvoli_new, srsi_new, uo_new, vortex_new, wpr_new end;
    (eapply iff_trans; [
       repeat match goal with
       | |- accepted (rbind _ _) <-> _ => apply accepted_bind; [first [apply accepted_assert | match goal with H : _ |- _ => apply H end]|intros ? _]
       | |- accepted (Ok _) <-> _ => apply accepted_ok
       end | rewrite ?Nat.leb_le, ?Nat.ltb_lt; intuition lia]).
  Qed.
  (** Every default configuration is accepted. *)
  Theorem C87_defaults :
    accepted (bb_default (F:=F)) /\ accepted (cmf_default (F:=F)) /\ accepted (cks_default (F:=F)) /\ accepted (cmo_default (F:=F)) /\
    accepted (chop_default (F:=F)) /\ accepted (cci_default (F:=F)) /\ accepted (crsi_default (F:=F)) /\ accepted (cop_default (F:=F)) /\
    accepted (dmi_default (F:=F)) /\ accepted (don_default (F:=F)) /\ accepted (rsii_default (F:=F)) /\ accepted (rvgi_default (F:=F)) /\
    accepted (rvoli_default (F:=F)) /\ accepted (srsi_default (F:=F)) /\ accepted (uo_default (F:=F)) /\ accepted (vortex_default (F:=F)) /\
    accepted (wpr_default (F:=F)) /\ accepted (ao_default (F:=F)).
  Proof. repeat split; eexists; reflexivity. Qed.
End C87.

(** ** C88: the position of an extremum *)
Section C88.
  Context {F : Type} {NF : Num F} {OF : OrdNum F}.
  Local Open Scope num_scope.
  Implicit Type xs : list (option F).
  (** Position [i] holds a value, no value of the series is above it, and every
      value before it is below it: the first maximum.  Likewise the first minimum. *)
  Definition first_max xs (i : nat) : Prop := exists v, nth_error xs i = Some (Some v) /\
    forall j w, nth_error xs j = Some (Some w) -> (w <=? v) = true /\ ((j < i)%nat -> (w <? v) = true).
  Definition first_min xs (i : nat) : Prop := exists v, nth_error xs i = Some (Some v) /\
    forall j w, nth_error xs j = Some (Some w) -> (v <=? w) = true /\ ((j < i)%nat -> (v <? w) = true).
  (** Nothing to compare: the last position. *)
  Definition answers (best : list (option F) -> nat -> Prop) xs (r : res nat) : Prop :=
    match r with
    | Ok i => ((forall x, In x xs -> x = None) -> i = length xs - 1)%nat /\ (forall v, In (Some v) xs -> best xs i)
    | Panic => xs = []
    end.
  Definition no_nan xs : Prop := forall v, In (Some v) xs -> fisnan v = false.

  Section Loop.
    Context (cmp : F -> F -> bool).
    Context (cmp_irr : forall a, cmp a a = false).
    Context (cmp_tr : forall a b c, cmp a b = true -> cmp b c = true -> cmp a c = true).
    Context (cmp_cotr : forall a b c, fisnan c = false -> cmp a b = true -> cmp a c = true \/ cmp c b = true).
    (** [v] at [i] beats the values before and is beaten by none. *)
    Definition top xs i := exists v, nth_error xs i = Some (Some v) /\
      forall j w, nth_error xs j = Some (Some w) -> cmp w v = false /\ ((j < i)%nat -> cmp v w = true).
    Lemma top_snoc_none xs i : top xs i -> top (xs ++ [None]) i.
    Proof.
      intros (v & N & A). exists v. assert (L : (i < length xs)%nat) by (apply nth_error_Some; congruence).
      split; [rewrite nth_error_app1; assumption|]. intros j w J.
      destruct (Nat.lt_ge_cases j (length xs)) as [H|H]; [rewrite nth_error_app1 in J by exact H; eauto|].
      rewrite nth_error_app2 in J by exact H. destruct (j - length xs)%nat as [|[|]]; discriminate.
    Qed.
    Lemma find_loop_top ys : forall xs m bi, no_nan (xs ++ ys) ->
      nth_error xs bi = Some (Some m) -> top xs bi ->
      exists i, find_loop cmp ys (length xs) (Some m) (Some bi) = Some i /\ top (xs ++ ys) i.
    Proof.
      induction ys as [|y ys IH]; intros xs m bi NN N T.
      - exists bi. rewrite app_nil_r. auto.
      - assert (L : (bi < length xs)%nat) by (apply nth_error_Some; congruence).
        replace (xs ++ y :: ys) with ((xs ++ [y]) ++ ys) in * by (rewrite <- app_assoc; reflexivity).
        replace (S (length xs)) with (length (xs ++ [y])) by (rewrite app_length; cbn; lia).
        assert (NL : length (xs ++ [y]) = S (length xs)) by (rewrite app_length; cbn; lia).
        cbn [find_loop]. rewrite <- NL. destruct y as [v|].
        + destruct T as (m' & N' & A). assert (m' = m) by congruence. subst m'.
          assert (NX : forall w j, nth_error xs j = Some (Some w) -> fisnan w = false).
          { intros w j J. apply NN. apply in_or_app; left. apply in_or_app; left. eapply nth_error_In, J. }
          destruct (cmp v m) eqn:C.
          * apply IH; [exact NN| |].
            { rewrite nth_error_app2, Nat.sub_diag by lia. reflexivity. }
            exists v. split; [rewrite nth_error_app2, Nat.sub_diag by lia; reflexivity|]. intros j w J.
            destruct (Nat.lt_ge_cases j (length xs)) as [H|H].
            -- rewrite nth_error_app1 in J by exact H. destruct (A j w J) as [A1 A2].
               destruct (cmp_cotr _ _ _ (NX _ _ J) C) as [K|K]; [|congruence].
               split; [|auto]. destruct (cmp w v) eqn:E; [|reflexivity].
               rewrite <- (cmp_irr w). symmetry. eapply cmp_tr; eassumption.
            -- rewrite nth_error_app2 in J by exact H. destruct (j - length xs)%nat as [|[|]] eqn:E; try discriminate.
               injection J as <-. split; [apply cmp_irr|lia].
          * apply IH; [exact NN|rewrite nth_error_app1; assumption|].
            exists m. split; [rewrite nth_error_app1; assumption|]. intros j w J.
            destruct (Nat.lt_ge_cases j (length xs)) as [H|H].
            -- rewrite nth_error_app1 in J by exact H. eauto.
            -- rewrite nth_error_app2 in J by exact H. destruct (j - length xs)%nat as [|[|]] eqn:E; try discriminate.
               injection J as <-. split; [exact C|lia].
        + apply IH; [exact NN|rewrite nth_error_app1; assumption|]. apply top_snoc_none, T.
    Qed.
    Lemma find_loop_none ys : forall xs, no_nan (xs ++ ys) -> (forall x, In x xs -> x = None) ->
      match find_loop cmp ys (length xs) None None with
      | Some i => top (xs ++ ys) i
      | None => forall x, In x (xs ++ ys) -> x = None
      end.
    Proof.
      induction ys as [|y ys IH]; intros xs NN N.
      - cbn. rewrite app_nil_r. exact N.
      - replace (xs ++ y :: ys) with ((xs ++ [y]) ++ ys) in * by (rewrite <- app_assoc; reflexivity).
        assert (NL : length (xs ++ [y]) = S (length xs)) by (rewrite app_length; cbn; lia).
        cbn [find_loop]. rewrite <- NL. destruct y as [v|].
        + destruct (@find_loop_top ys (xs ++ [Some v]) v (length xs)) as (i & E & T); [exact NN| | |].
          * rewrite nth_error_app2, Nat.sub_diag by lia. reflexivity.
          * exists v. split; [rewrite nth_error_app2, Nat.sub_diag by lia; reflexivity|]. intros j w J.
            destruct (Nat.lt_ge_cases j (length xs)) as [H|H].
            -- rewrite nth_error_app1 in J by exact H. apply nth_error_In, N in J. discriminate.
            -- rewrite nth_error_app2 in J by exact H. destruct (j - length xs)%nat as [|[|]] eqn:E; try discriminate.
               injection J as <-. split; [apply cmp_irr|lia].
          * rewrite E. exact T.
        + apply IH; [exact NN|]. intros x Hx. apply in_app_or in Hx. destruct Hx as [Hx|[<-|[]]]; auto.
    Qed.
    Lemma find_index_answers xs : no_nan xs -> answers top xs (find_index cmp xs).
    Proof.
      intros NN. unfold find_index, assertb. destruct xs as [|x xs]; [reflexivity|].
      change (length (x :: xs) =? 0)%nat with false. cbn [negb rbind].
      pose proof (@find_loop_none (x :: xs) [] NN) as A. cbn [length app] in A.
      specialize (A (fun z H => match H with end)).
      destruct (find_loop cmp (x :: xs) 0 None None) as [i|].
      - cbn [answers]. split; [|auto]. intros H. destruct A as (v & N & _). apply nth_error_In, H in N. discriminate.
      - unfold usub. destruct (Nat.leb_spec 1 (length (x :: xs))); [|cbn [length] in *; lia]. cbn [answers].
        split; [auto|]. intros v Hv. apply A in Hv. discriminate.
    Qed.
  End Loop.

  (** The answer is the first extremum; the last position when every value is
      missing; a panic exactly for the empty series. *)
  Theorem C88_max_index xs : no_nan xs -> answers first_max xs (find_max_index xs).
  Proof.
    intros NN. assert (A := @find_index_answers (fun v m => fgtb v m)). unfold fgtb in A. unfold find_max_index, fgtb.
    specialize (A (fun a => lt_irrefl a) (fun a b c H K => lt_trans _ _ _ K H)).
    specialize (A (fun a b c N H => match lt_cotrans _ _ _ N H with or_introl K => or_intror K | or_intror K => or_introl K end) xs NN).
    destruct (find_index _ xs) as [i|]; [|exact A]. cbn [answers] in *. destruct A as [A B]. split; [exact A|].
    intros v Hv. destruct (B v Hv) as (m & N & T). exists m. split; [exact N|]. intros j w J. destruct (T j w J) as [T1 T2].
    split; [|exact T2]. apply not_lt_le; [| |exact T1].
    - apply NN. eapply nth_error_In, J.
    - apply NN. eapply nth_error_In, N.
  Qed.
  Theorem C88_min_index xs : no_nan xs -> answers first_min xs (find_min_index xs).
  Proof.
    intros NN. assert (A := @find_index_answers (fun v m => v <? m)). unfold find_min_index.
    specialize (A lt_irrefl lt_trans lt_cotrans xs NN).
    destruct (find_index _ xs) as [i|]; [|exact A]. cbn [answers] in *. destruct A as [A B]. split; [exact A|].
    intros v Hv. destruct (B v Hv) as (m & N & T). exists m. split; [exact N|]. intros j w J. destruct (T j w J) as [T1 T2].
    split; [|exact T2]. apply not_lt_le; [| |exact T1].
    - apply NN. eapply nth_error_In, N.
    - apply NN. eapply nth_error_In, J.
  Qed.
  Theorem C88_empty xs : (find_max_index xs = Panic <-> xs = []) /\ (find_min_index xs = Panic <-> xs = []).
  Proof.
    split; (split; [|intros ->; reflexivity]); destruct xs as [|x xs]; try reflexivity; intros H; exfalso;
    [unfold find_max_index in H|unfold find_min_index in H];
    match type of H with find_index ?c _ = _ => destruct (find_index_spec c (x :: xs)) as (i & E & _); [discriminate|congruence] end.
  Qed.
End C88.
Example C88_ex : find_max_index [Some (q 2); None; Some (q 7); Some (q 7); Some (q 1)] = Ok 2%nat /\
  find_min_index [None; Some (q 2); Some (q 7); Some (q 2)] = Ok 1%nat /\ find_max_index (F:=f64) [None; None] = Ok 1%nat.
Proof. repeat split; vm_compute; reflexivity. Qed.

(** ** C41: the standard deviations *)
Section C41_stdev.
  Open Scope R_scope.
  Lemma fin_stdev_from_var x : 0 <= x -> stdev_from_var (Fin x) = Fin (sqrt x).
  Proof. intros H. unfold stdev_from_var. apply fin_sqrt, H. Qed.
  (** Welford's standard deviation is the square root of the sample variance. *)
  Theorem C41_welford_stdev c (xs : list R) :
    run wstdev_step c wvar_new (map Fin xs) = Ok (map Fin (each_prefix (fun l => sqrt (Rsample_var l)) xs)).
  Proof.
    assert (G : forall zs c w os s, run_st wvar_step c w (map Fin zs) = Ok (s, map Fin os) -> Forall (fun x => 0 <= x) os ->
       run_st wstdev_step c w (map Fin zs) = Ok (s, map Fin (map sqrt os))).
    { induction zs as [|z zs IH]; intros c0 w os s H P.
      - cbn in H. injection H as <- H. destruct os; [reflexivity|discriminate].
      - cbn [map run_st] in *. unfold wvar_step at 1 in H. unfold wstdev_step at 1. destruct (wvar_next w (Fin z)) as [w' o].
        cbn [rbind] in *. destruct (run_st wvar_step (ctx_advance c0) w' (map Fin zs)) as [[s2 os2]|] eqn:R; [|discriminate].
        cbn [rbind] in H. injection H as <- H. destruct os as [|o1 os]; [discriminate|]. cbn [map] in H. injection H as -> ->.
        inversion P; subst. rewrite (IH _ _ _ _ R) by assumption. cbn [rbind map]. rewrite fin_stdev_from_var by assumption. reflexivity. }
    destruct (wvar_run c xs) as (s & R & _). unfold run. rewrite (G _ _ _ _ _ R).
    - cbn [rmap snd]. unfold each_prefix. rewrite !map_map. reflexivity.
    - apply Forall_forall. intros x Hx. unfold each_prefix in Hx. apply in_map_iff in Hx. destruct Hx as (l & <- & _). apply C41_nonneg.
  Qed.
End C41_stdev.
Example C41_welford_stdev_ex : gives feqb (run wstdev_step ctx6 wvar_new [q 1; q 1; q 1; q 9]) [q 0; q 0; q 0; q 4] = true.
Proof. vm_compute. reflexivity. Qed.

(** ** C75: merging columns *)
Section C75_merge.
  Context {F : Type} {NF : Num F}.
  (** What cell [i] of a numeric column reads as. *)
  Definition reads (col : list (option F)) (i : nat) : option F :=
    match nth_error col i with
    | Some (Some x) => if fisnan x then None else Some x
    | _ => None
    end.
  Lemma combine_nth_error {A B} (l : list A) (m : list B) i :
    nth_error (combine l m) i = match nth_error l i, nth_error m i with Some a, Some b => Some (a, b) | _, _ => None end.
  Proof.
    revert m i. induction l as [|a l IH]; intros m i; [destruct i; reflexivity|].
    destruct m as [|b m]; [destruct i; cbn; [|destruct (nth_error l i)]; reflexivity|]. destruct i; cbn; [reflexivity|apply IH].
  Qed.
  Lemma series_reads col i : i < length col -> nth_error (series_to_f64 col) i = Some (reads col i).
  Proof.
    intros H. rewrite C75_cells. unfold reads. destruct (nth_error col i) as [[x|]|] eqn:E; [reflexivity|reflexivity|].
    apply nth_error_None in E. lia.
  Qed.
  Lemma series_len col : length (series_to_f64 (F:=F) col) = length col.
  Proof. apply map_length. Qed.
  (** Row [i] of the merged columns, as many rows as the shortest column. *)
  Theorem C75_merge_three (a b d : list (option F)) :
    length (merge_three_columns a b d) = Nat.min (Nat.min (length a) (length b)) (length d) /\
    forall i, i < length (merge_three_columns a b d) ->
      nth_error (merge_three_columns a b d) i = Some (Some (reads a i, reads b i, reads d i)).
  Proof.
    unfold merge_three_columns. rewrite map_length, !combine_length, !series_len. split; [reflexivity|].
    intros i Hi. rewrite nth_error_map, !combine_nth_error, !series_reads by lia. reflexivity.
  Qed.
  Theorem C75_merge_four (a b d e : list (option F)) :
    length (merge_four_columns a b d e) = Nat.min (Nat.min (Nat.min (length a) (length b)) (length d)) (length e) /\
    forall i, i < length (merge_four_columns a b d e) ->
      nth_error (merge_four_columns a b d e) i = Some (Some (reads a i, reads b i, reads d i, reads e i)).
  Proof.
    unfold merge_four_columns. rewrite map_length, !combine_length, !series_len. split; [reflexivity|].
    intros i Hi. rewrite nth_error_map, !combine_nth_error, !series_reads by lia. reflexivity.
  Qed.
End C75_merge.
Example C75_merge_ex : merge_three_columns [Some (q 1); None] [Some (q 2); Some (q 5)] [None; Some (q 7)] =
  [Some (Some (q 1), Some (q 2), None); Some (None, Some (q 5), Some (q 7))].
Proof. reflexivity. Qed.
