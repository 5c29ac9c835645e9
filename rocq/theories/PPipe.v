(** * PPipe: composing components. *)
From Verif Require Export PTa2.

(** Once present, always present: what gap-free data and everything computed
    from it looks like. *)
Definition warmed {A} (h : list (option A)) : Prop := exists k vs, h = warm k vs.

Section Warmed.
  Context {A : Type}.
  Implicit Types h : list (option A).

  Lemma present_warm k (vs : list A) : present (warm k vs) = vs.
  Proof.
    unfold warm. induction k as [|k IH]; cbn; [|exact IH].
    induction vs as [|v vs IH]; cbn; [|rewrite IH]; reflexivity.
  Qed.

  Lemma warm_nil_repeat k : warm k (@nil A) = repeat None k.
  Proof. unfold warm; apply app_nil_r. Qed.

  Lemma warm_S_nil k : warm (S k) (@nil A) = warm k [] ++ [None].
  Proof. rewrite !warm_nil_repeat. replace (S k) with (k + 1)%nat by lia. rewrite repeat_app. reflexivity. Qed.

  Lemma warmed_nil : warmed (@nil (option A)).
  Proof. exists 0%nat, []. reflexivity. Qed.

  Lemma warmed_map_Some (vs : list A) : warmed (map Some vs).
  Proof. exists 0%nat, vs. reflexivity. Qed.

  Lemma warm_prefix k (vs : list A) n :
    firstn n (warm k vs) = warm (Nat.min n k) (firstn (n - k) vs).
  Proof.
    unfold warm. rewrite firstn_app, firstn_map, repeat_length. f_equal.
    revert k; induction n as [|n IH]; intros k; [reflexivity|]. destruct k; [reflexivity|].
    cbn. rewrite IH. reflexivity.
  Qed.

  Lemma warmed_firstn n h : warmed h -> warmed (firstn n h).
  Proof. intros (k & vs & ->). rewrite warm_prefix. eexists _, _; reflexivity. Qed.

  Lemma warmed_app_l h h' : warmed (h ++ h') -> warmed h.
  Proof.
    intros H. apply (warmed_firstn (length h)) in H.
    rewrite firstn_app, Nat.sub_diag, firstn_all in H. cbn in H. rewrite app_nil_r in H. exact H.
  Qed.

  Lemma warmed_snoc h x : warmed (h ++ [x]) <-> warmed h /\ (x = None -> present h = []).
  Proof.
    split.
    - intros H. split; [eapply warmed_app_l; exact H|]. intros ->.
      destruct H as (k & vs & E). destruct vs as [|v vs] using rev_ind.
      + rewrite warm_nil_repeat in E. destruct k as [|k]; [destruct h; discriminate|].
        rewrite <- warm_nil_repeat, warm_S_nil in E. apply app_inj_tail in E. destruct E as [-> _].
        apply present_warm.
      + rewrite warm_snoc in E. apply app_inj_tail in E. destruct E; discriminate.
    - intros [(k & vs & ->) H]. destruct x as [v|].
      + exists k, (vs ++ [v]). rewrite warm_snoc. reflexivity.
      + specialize (H eq_refl). rewrite present_warm in H. subst vs.
        exists (S k), []. rewrite warm_S_nil. reflexivity.
  Qed.

  Lemma present_nil h : present h = [] <-> Forall (fun x => x = None) h.
  Proof.
    induction h as [|[a|] h IH]; cbn.
    - split; auto.
    - split; [discriminate|]. intros H; inversion H; discriminate.
    - rewrite IH. split; [constructor; auto|intros H; inversion H; assumption].
  Qed.
  Lemma present_snoc_Some h v : present (h ++ [Some v]) = present h ++ [v].
  Proof. rewrite present_app. reflexivity. Qed.
  Lemma present_snoc_None h : present (h ++ [None]) = present h.
  Proof. rewrite present_app. apply app_nil_r. Qed.
End Warmed.

(** A per-bar function of histories whose definedness is monotone along the
    series yields a warmed series. *)
Lemma warmed_each_prefix {A B} (f : list A -> option B) xs :
  (forall h x, (exists t, xs = h ++ x :: t) -> h <> [] ->
     f h <> None -> f (h ++ [x]) <> None) ->
  warmed (each_prefix f xs).
Proof.
  induction xs as [|x xs IH] using rev_ind; intros H; [apply warmed_nil|].
  rewrite each_prefix_snoc. apply warmed_snoc.
  assert (IH' : warmed (each_prefix f xs)).
  { apply IH. intros h y (t & ->). apply H. exists (t ++ [x]). rewrite <- app_assoc. reflexivity. }
  split; [exact IH'|]. intros E.
  destruct xs as [|y xs] using rev_ind; [reflexivity|]. clear IHxs.
  assert (N : f (xs ++ [y]) = None).
  { destruct (f (xs ++ [y])) eqn:Ef; [|reflexivity]. exfalso.
    apply (H (xs ++ [y]) x); [exists []; reflexivity|destruct xs; discriminate|congruence|exact E]. }
  rewrite each_prefix_snoc, N in *. apply warmed_snoc in IH'. destruct IH' as [_ P].
  rewrite present_snoc_None. apply P; reflexivity.
Qed.

Lemma app_inj_len {A} (l1 l1' l2 l2' : list A) : length l1 = length l1' ->
  l1 ++ l2 = l1' ++ l2' -> l1 = l1'.
Proof.
  revert l1'; induction l1 as [|a l1 IH]; intros [|b l1'] L E; try discriminate; [reflexivity|].
  cbn in *. injection E as -> E. f_equal. apply IH; [lia|exact E].
Qed.

Section Pipe.
  Context {F : Type} {NF : Num F}.

  (** ** A component seen through its runs *)
  Section Beh.
    Context {S I O : Type}.
    Variable step : ctx F -> S -> I -> res (S * O).

    (** From state [s0], on every input history in [dom] the outputs are [f]
        of the history. *)
    Definition behaves (c : ctx F) (s0 : S) (dom : list I -> Prop) (f : list I -> O) : Prop :=
      forall xs, dom xs -> run step c s0 xs = Ok (each_prefix f xs).

    (** [s] is the state after the history [h]. *)
    Definition reach (c : ctx F) (s0 : S) (h : list I) (s : S) : Prop :=
      exists os, run_st step c s0 h = Ok (s, os).

    Lemma reach_nil c s0 : reach c s0 [] s0.
    Proof. exists []. reflexivity. Qed.

    Lemma reach_step c s0 dom f h s x :
      behaves c s0 dom f -> dom (h ++ [x]) -> reach c s0 h s ->
      exists s', step (ctx_at c (length h)) s x = Ok (s', f (h ++ [x])) /\ reach c s0 (h ++ [x]) s'.
    Proof.
      intros B D (os & R). specialize (B _ D). unfold run in B. unfold reach.
      rewrite run_st_app in *. rewrite R in *. cbn [rbind run_st] in *.
      destruct (step (ctx_at c (length h)) s x) as [[s' o]|]; [|discriminate].
      cbn [rbind rmap snd] in *. injection B as E. rewrite each_prefix_snoc in E.
      apply app_inj_tail in E. destruct E as [_ ->].
      exists s'. split; [reflexivity|]. eexists; reflexivity.
    Qed.
  End Beh.

  Lemma behaves_box {S I O} (step : ctx F -> S -> I -> res (S * O)) c s0 dom f :
    behaves step c s0 dom f -> behaves ostep c (box step s0) dom f.
  Proof. intros B xs D. rewrite run_box. apply B, D. Qed.

  (** ** Reading bars *)
  Lemma vget_at {A B} (g : A -> B) (h : list A) b t : vget (map g (h ++ b :: t)) (length h) = Ok (g b).
  Proof. rewrite map_app. cbn [map]. rewrite <- (map_length g h). apply vget_app. Qed.

  Section Reads.
    Variables (c : ctx F) (h : list (bar F)) (b : bar F) (t : list (bar F)).
    Hypothesis HF : fresh_over c (h ++ b :: t).

    Local Lemma idx : c_index (ctx_at c (length h)) = length h.
    Proof. rewrite ctx_at_index. destruct HF as [_ ->]. reflexivity. Qed.

    Ltac rd := unfold bar_open, bar_high, bar_low, bar_close, bar_volume; rewrite ctx_at_data, idx;
      destruct HF as [(Ho & Hh & Hl & Hc & Hv) _]; rewrite ?Ho, ?Hh, ?Hl, ?Hc, ?Hv; apply vget_at.
    Lemma read_open : bar_open (ctx_at c (length h)) = Ok (b_open b).
    Proof. rd. Qed.
    Lemma read_high : bar_high (ctx_at c (length h)) = Ok (b_high b).
    Proof. rd. Qed.
    Lemma read_low : bar_low (ctx_at c (length h)) = Ok (b_low b).
    Proof. rd. Qed.
    Lemma read_close : bar_close (ctx_at c (length h)) = Ok (b_close b).
    Proof. rd. Qed.
    Lemma read_volume : bar_volume (ctx_at c (length h)) = Ok (b_volume b).
    Proof. rd. Qed.

    Lemma firstn_hist {A} (g : bar F -> A) : firstn (S (length h)) (map g (h ++ b :: t)) = map g (h ++ [b]).
    Proof.
      rewrite firstn_map. f_equal. replace (h ++ b :: t) with ((h ++ [b]) ++ t) by (rewrite <- app_assoc; reflexivity).
      rewrite firstn_app. assert (L : length (h ++ [b]) = S (length h)) by (rewrite app_length; cbn; lia).
      rewrite L, Nat.sub_diag, firstn_O, app_nil_r, firstn_all2 by lia. reflexivity.
    Qed.

    Lemma len_map {A} (g : bar F -> A) : length h < length (map g (h ++ b :: t)).
    Proof. rewrite map_length, app_length; cbn; lia. Qed.

    Ltac pv := rewrite ctx_prev_spec; rewrite ?ctx_at_data, ?idx;
      destruct HF as [(Ho & Hh & Hl & Hc & Hv) _]; rewrite ?Ho, ?Hh, ?Hl, ?Hc, ?Hv;
      [rewrite firstn_hist; reflexivity|apply len_map].
    Lemma read_prev_high n : ctx_high (ctx_at c (length h)) n = Ok (join (ago n (map b_high (h ++ [b])))).
    Proof. unfold ctx_high; pv. Qed.
    Lemma read_prev_low n : ctx_low (ctx_at c (length h)) n = Ok (join (ago n (map b_low (h ++ [b])))).
    Proof. unfold ctx_low; pv. Qed.
    Lemma read_prev_close n : ctx_close (ctx_at c (length h)) n = Ok (join (ago n (map b_close (h ++ [b])))).
    Proof. unfold ctx_close; pv. Qed.
    Lemma read_prev_volume n : ctx_volume (ctx_at c (length h)) n = Ok (join (ago n (map b_volume (h ++ [b])))).
    Proof. unfold ctx_volume; pv. Qed.

    Ltac rg := rewrite ctx_range_spec; rewrite ?ctx_at_data, ?idx;
      destruct HF as [(Ho & Hh & Hl & Hc & Hv) _]; rewrite ?Ho, ?Hh, ?Hl, ?Hc, ?Hv;
      [rewrite firstn_hist; reflexivity|apply len_map|assumption|assumption].
    Lemma read_highs n : 1 <= n -> n <= S (length h) ->
      ctx_highs (ctx_at c (length h)) n = Ok (lastn n (map b_high (h ++ [b]))).
    Proof. intros. unfold ctx_highs; rg. Qed.
    Lemma read_lows n : 1 <= n -> n <= S (length h) ->
      ctx_lows (ctx_at c (length h)) n = Ok (lastn n (map b_low (h ++ [b]))).
    Proof. intros. unfold ctx_lows; rg. Qed.
    Lemma fresh_index : c_index (ctx_at c (length h)) = length h.
    Proof. exact idx. Qed.
  End Reads.

  (** ** Components driven by the bars of a fresh context *)
  Section Ticks.
    Context {A S O : Type}.
    Variable step : ctx F -> S -> unit -> res (S * O).

    Lemma run_ticks (inv : list A -> S -> Prop) (f : list A -> O) c s0 bs :
      inv [] s0 ->
      (forall h s b t, bs = h ++ b :: t -> inv h s ->
         exists s', step (ctx_at c (length h)) s tt = Ok (s', f (h ++ [b])) /\ inv (h ++ [b]) s') ->
      run step c s0 (ticks (length bs)) = Ok (each_prefix f bs).
    Proof.
      intros H0 Hs.
      assert (G : forall t h s, bs = h ++ t -> inv h s ->
                  run step (ctx_at c (length h)) s (ticks (length t)) = Ok (scan f h t)).
      { induction t as [|b t IH]; intros h s E Hi; [reflexivity|].
        destruct (Hs h s b t E Hi) as (s' & Es & Hi').
        cbn [length ticks repeat scan]. unfold ticks in *. cbn [repeat]. rewrite run_cons, Es; cbn [rbind].
        rewrite ctx_at_S. assert (L : Datatypes.S (length h) = length (h ++ [b])) by (rewrite app_length; cbn; lia).
        rewrite L, IH with (h := h ++ [b]); [reflexivity| |exact Hi'].
        rewrite <- app_assoc; exact E. }
      specialize (G bs [] s0 eq_refl H0). cbn [length] in G. rewrite ctx_at_0 in G.
      rewrite G, each_prefix_scan. reflexivity.
    Qed.
  End Ticks.

  (** ** Series derived from a history *)
  (** the current / previous value of a column. *)
  Definition cur {A B} (k : A -> option B) (h : list A) : option B := obind (newest h) k.
  Definition prv {A B} (k : A -> option B) (h : list A) : option B := obind (ago 1 h) k.

  Lemma cur_snoc {A B} (k : A -> option B) h b : cur k (h ++ [b]) = k b.
  Proof. unfold cur. rewrite newest_snoc. reflexivity. Qed.
  Lemma prv_snoc {A B} (k : A -> option B) h b : prv k (h ++ [b]) = cur k h.
  Proof.
    unfold prv, cur. rewrite ago_S_snoc. destruct h as [|y h] using rev_ind; [reflexivity|].
    rewrite newest_snoc, ago_0_snoc. reflexivity.
  Qed.
  Lemma each_prefix_cur {A B} (k : A -> option B) bs : each_prefix (cur k) bs = map k bs.
  Proof.
    induction bs as [|b bs IH] using rev_ind; [reflexivity|].
    rewrite each_prefix_snoc, IH, cur_snoc, map_app. reflexivity.
  Qed.
  Lemma prv_ago {A B} (k : A -> option B) h : join (ago 1 (map k h)) = prv k h.
  Proof.
    unfold prv, ago. rewrite map_length, nth_error_map.
    destruct (1 <? length h); [|reflexivity]. destruct (nth_error h _); reflexivity.
  Qed.

  (** One call of an inner component fed, at each bar, with [g] of the
      history. *)
  Lemma sub_step {A S I O} (step : ctx F -> S -> I -> res (S * O)) c s0 dom f (g : list A -> I) h b s :
    behaves step c s0 dom f -> dom (each_prefix g (h ++ [b])) -> reach step c s0 (each_prefix g h) s ->
    exists s', step (ctx_at c (length h)) s (g (h ++ [b])) = Ok (s', f (each_prefix g (h ++ [b]))) /\
               reach step c s0 (each_prefix g (h ++ [b])) s'.
  Proof.
    intros B D R. rewrite each_prefix_snoc in *.
    destruct (reach_step _ _ _ _ _ _ _ _ B D R) as (s' & E & R'). rewrite length_each_prefix in E.
    exists s'; split; assumption.
  Qed.

  (** One call of an inner component driven by the same bars. *)
  Lemma tick_step {A S O} (step : ctx F -> S -> unit -> res (S * O)) c s0 (f : list A -> O) zs h b t s :
    run step c s0 (ticks (length zs)) = Ok (each_prefix f zs) -> zs = h ++ b :: t ->
    reach step c s0 (ticks (length h)) s ->
    exists s', step (ctx_at c (length h)) s tt = Ok (s', f (h ++ [b])) /\
               reach step c s0 (ticks (length (h ++ [b]))) s'.
  Proof.
    intros B -> (os & R). unfold run in B. unfold reach.
    assert (E : ticks (length (h ++ b :: t)) = (ticks (length h) ++ [tt]) ++ ticks (length t)).
    { unfold ticks. rewrite app_length. cbn [length]. rewrite repeat_app. cbn [repeat].
      rewrite <- app_assoc. reflexivity. }
    assert (E1 : ticks (length (h ++ [b])) = ticks (length h) ++ [tt]).
    { unfold ticks. rewrite app_length. cbn [length]. rewrite repeat_app. reflexivity. }
    rewrite E in B. rewrite E1, !run_st_app in *. rewrite R in *. cbn [rbind run_st] in *.
    assert (Lh : length (ticks (length h)) = length h) by apply repeat_length.
    rewrite Lh in *.
    destruct (step (ctx_at c (length h)) s tt) as [[s' o]|] eqn:Es; [|discriminate].
    cbn [rbind] in *.
    destruct (run_st step _ s' (ticks (length t))) as [[s2 os2]|]; [|discriminate].
    cbn [rbind rmap snd] in *. injection B as B.
    assert (Los : length os = length h).
    { pose proof (run_length step c s0 (ticks (length h)) os) as Q. unfold run in Q. rewrite R in Q.
      rewrite (Q eq_refl). exact Lh. }
    exists s'. split; [|eexists; reflexivity]. do 2 f_equal.
    replace (h ++ b :: t) with ((h ++ [b]) ++ t) in B by (rewrite <- app_assoc; reflexivity).
    rewrite each_prefix_app, each_prefix_snoc in B.
    assert (B1 : os ++ [o] = each_prefix f h ++ [f (h ++ [b])]).
    { apply app_inj_len in B; [exact B|]. rewrite !app_length, length_each_prefix. cbn; lia. }
    apply app_inj_tail in B1. apply B1.
  Qed.

  (** A source that yields the series [xs]. *)
  Definition feeds (c : ctx F) (src : obj F unit (option F)) (xs : list (option F)) : Prop :=
    run ostep c src (ticks (length xs)) = Ok xs.

  Lemma src_tick {A} c src (g : A -> option F) zs h b t s :
    feeds c src (map g zs) -> zs = h ++ b :: t -> reach ostep c src (ticks (length h)) s ->
    exists s', ostep (ctx_at c (length h)) s tt = Ok (s', g b) /\
               reach ostep c src (ticks (length (h ++ [b]))) s'.
  Proof.
    intros B E R. unfold feeds in B. rewrite map_length, <- each_prefix_cur in B.
    destruct (tick_step _ _ _ _ _ _ _ _ _ B E R) as (s' & Es & R'). rewrite cur_snoc in Es.
    exists s'; split; assumption.
  Qed.

  (** Ema on warmed input. *)
  Definition ema_out (alpha : F) (len : nat) (h : list (option F)) : option F :=
    ema_val alpha len (present h).

  Lemma ema_val_nil alpha len : 1 <= len -> ema_val alpha len [] = None.
  Proof.
    intros H. unfold ema_val. destruct (Nat.eqb_spec len 1); [reflexivity|].
    cbn [length]. destruct (Nat.ltb_spec 0 len); [reflexivity|lia].
  Qed.

  Lemma ema_runs_out len alpha xs : 1 <= len -> warmed xs ->
    ema_runs len alpha xs = Ok (each_prefix (ema_out alpha len) xs).
  Proof.
    intros H (k & vs & ->). rewrite ema_runs_warm by exact H. f_equal.
    unfold warm at 1. rewrite each_prefix_app. f_equal.
    - symmetry. rewrite each_prefix_const with (b := None); [rewrite repeat_length; reflexivity|].
      intros p Hp. unfold ema_out. rewrite (proj2 (present_nil p)); [apply ema_val_nil; exact H|].
      apply Forall_forall. intros x Hx. eapply repeat_spec, prefix_In; eassumption.
    - rewrite each_prefix_of_map. apply each_prefix_ext. intros p. unfold ema_out.
      fold (warm k p). rewrite present_warm. reflexivity.
  Qed.

  Lemma ema_behaves len alpha c s : 1 <= len -> ema_inv len alpha (c_index c) s ->
    behaves ema_step c s warmed (ema_out alpha len).
  Proof.
    intros H Hi xs W. rewrite ema_run_inv with (len := len) (alpha := alpha) by assumption.
    apply ema_runs_out; assumption.
  Qed.

  Definition anyh {A} (_ : list A) : Prop := True.

  Lemma sum_behaves len c s : 1 <= len -> sum_inv len (c_index c) [] s ->
    behaves sum_step c s anyh (sum_out len).
  Proof. intros H Hi xs _. apply sum_run_inv; assumption. Qed.
  Lemma sma_behaves len c s : 1 <= len -> sma_inv len (c_index c) [] s ->
    behaves sma_step c s anyh (sma_out len).
  Proof. intros H Hi xs _. apply sma_run_inv; assumption. Qed.
  Lemma roc_behaves len c : 1 <= len ->
    behaves roc_step c (mkWC (len + 1) []) anyh (roc_out len).
  Proof. intros H xs _. apply roc_run_inv; assumption. Qed.
  Lemma swma_behaves c s : swma_inv (c_index c) [] s ->
    behaves swma_step c s anyh (swma_out (c_index c)).
  Proof. intros H xs _. apply swma_run_inv; assumption. Qed.
  Lemma fixnan_behaves c : behaves fixnan_step c fixnan_new anyh last_present.
  Proof. intros xs _. apply fixnan_run. Qed.
End Pipe.
