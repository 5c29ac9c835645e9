(** * PTa3: Dev, Stdev, extrema, Prank, Rsi, Stoch, Tr, Atr, crosses, Ma. *)
From Verif Require Export PPipe.

Section Makes.
  Context {F : Type} {NF : Num F}.
  (** The constructor succeeds and the component behaves as [f] (which may
      depend on the bar index at which it is started). *)
  Definition makes {S I O} (new : res S) (step : ctx F -> S -> I -> res (S * O))
      (dom : list I -> Prop) (f : nat -> list I -> O) : Prop :=
    exists s, new = Ok s /\ forall c, behaves step c s dom (f (c_index c)).

  Lemma makes_run {S I O} (new : res S) (step : ctx F -> S -> I -> res (S * O)) dom f c xs :
    makes new step dom f -> dom xs ->
    run_new new step c xs = Ok (each_prefix (f (c_index c)) xs).
  Proof. intros (s & E & B) D. unfold run_new; rewrite E; cbn [rbind]. apply B, D. Qed.

  Lemma run_makes {S I O} (new : res S) (step : ctx F -> S -> I -> res (S * O)) (dom : list I -> Prop) f
      (d : provider F) :
    (forall c xs, dom xs -> run_new new step c xs = Ok (each_prefix (f (c_index c)) xs)) ->
    dom [] -> makes new step dom f.
  Proof.
    intros H D. destruct new as [s|].
    - exists s. split; [reflexivity|]. intros c xs Hx. exact (H c xs Hx).
    - specialize (H (mkCtx d 0 0 0 0 false) [] D). discriminate.
  Qed.
End Makes.

Section Ta3.
  Context {F : Type} {NF : Num F}.
  Local Open Scope num_scope.
  Local Notation hist := (list (option F)).

  Definition d0 : provider F := mkProvider [] [] [] [] [] [] 0 0.

  Lemma sum_makes len : 1 <= len -> makes (sum_new len) sum_step anyh (fun _ => sum_out len).
  Proof. intros H. apply (run_makes _ _ _ _ d0); [intros; apply sum_run; exact H|exact I]. Qed.
  Lemma sma_makes len : 1 <= len -> makes (sma_new len) sma_step anyh (fun _ => sma_out len).
  Proof. intros H. apply (run_makes _ _ _ _ d0); [intros; apply sma_run; exact H|exact I]. Qed.
  Lemma roc_makes len : 1 <= len -> makes (roc_new len) roc_step anyh (fun _ => roc_out len).
  Proof. intros H. apply (run_makes _ _ _ _ d0); [intros; apply roc_run; exact H|exact I]. Qed.
  Lemma change_makes len : 1 <= len -> makes (change_new len) change_step anyh (fun _ => change_out len).
  Proof. intros H. apply (run_makes _ _ _ _ d0); [intros; apply change_run; exact H|exact I]. Qed.
  Lemma wma_makes len : 1 <= len -> makes (wma_new len) wma_step anyh (wma_out len).
  Proof. intros H. apply (run_makes _ _ _ _ d0); [intros; apply wma_run; exact H|exact I]. Qed.
  Lemma swma_makes : makes swma_new swma_step anyh swma_out.
  Proof. apply (run_makes _ _ _ _ d0); [intros; apply swma_run|exact I]. Qed.
  Lemma fixnan_makes : makes (Ok (@fixnan_new F)) fixnan_step anyh (fun _ => last_present).
  Proof. exists fixnan_new; split; [reflexivity|]. intros c; apply fixnan_behaves. Qed.
  Lemma ema_alpha_makes len alpha : 1 <= len ->
    makes (ema_with_alpha len alpha) ema_step warmed (fun _ => ema_out alpha len).
  Proof.
    intros H. apply (run_makes _ _ _ _ d0); [|apply warmed_nil].
    intros c xs W. rewrite ema_with_alpha_run by exact H. apply ema_runs_out; assumption.
  Qed.
  Definition ema_alpha_of (len : nat) : F := fZ 2 / (fnat len + fZ 1).
  Definition rma_alpha_of (len : nat) : F := fZ 1 / fnat len.
  Lemma ema_makes len : 1 <= len ->
    makes (ema_new len) ema_step warmed (fun _ => ema_out (ema_alpha_of len) len).
  Proof. intros H. apply ema_alpha_makes; exact H. Qed.
  Lemma rma_makes len : 1 <= len ->
    makes (rma_new len) rma_step warmed (fun _ => ema_out (rma_alpha_of len) len).
  Proof. intros H. rewrite rma_new_eq by exact H. apply ema_alpha_makes; exact H. Qed.

  (** ** Dev *)
  Definition dev_val (mean : F) (vs : list F) : F :=
    fsum (map (fun v => fabs (v - mean)) vs) / fnat (length vs).
  Definition dev_out len (h : hist) : option F :=
    if (len =? 1)%nat then Some (fZ 0)
    else option_map (fun vs => dev_val (rsum len h / fnat len) vs) (window len h).

  Lemma dev_makes len : 1 <= len -> makes (dev_new len) dev_step anyh (fun _ => dev_out len).
  Proof.
    intros H. destruct (sma_makes len H) as (m & Em & Bm).
    unfold dev_new, assertb. destruct (Nat.leb_spec 1 len); [|lia]. cbn [rbind]. rewrite Em; cbn [rbind].
    eexists; split; [reflexivity|]. intros c xs _.
    apply (@run_spec F _ _ _ dev_step (fun h s => dv_len s = len /\
      (len <> 1 -> dv_cache s = mkWC len h /\ reach sma_step c m h (dv_sma s)))).
    { split; [reflexivity|]. intros _; split; [reflexivity|apply reach_nil]. }
    intros h s x (E1 & E2). destruct s as [l sm k]; cbn in E1, E2; subst l.
    unfold dev_step, dev_out; cbn [dv_len dv_cache dv_sma].
    destruct (Nat.eqb_spec len 1) as [->|Hne].
    { eexists; split; [reflexivity|]. split; [reflexivity|]. intros C; congruence. }
    destruct (E2 Hne) as (-> & R). rewrite wc_push_eq.
    destruct (reach_step _ _ _ _ _ _ _ x (Bm c) I R) as (s' & Es & R').
    rewrite Es; cbn [rbind]. unfold sma_out. destruct (Nat.eqb_spec len 1); [lia|].
    unfold wc_is_filled; cbn [wc_len wc_vals]. rewrite wc_all_lastn.
    destruct (window len (h ++ [x])) as [vs|] eqn:W; cbn [option_map].
    2:{ eexists; split; [reflexivity|]. split; [reflexivity|]. intros _; split; [reflexivity|exact R']. }
    pose proof (window_length _ _ _ W) as L. unfold window in W.
    destruct (Nat.leb_spec len (length (h ++ [x]))); [|discriminate]. cbn [negb].
    apply all_some_Some in W. rewrite W, map_map. eexists; split.
    { unfold dev_val. rewrite L. reflexivity. }
    split; [reflexivity|]. intros _; split; [reflexivity|exact R'].
  Qed.

  (** ** Stdev *)
  Definition stdev_val (biased : bool) (mean : F) (vs : list F) : F :=
    fsqrt (fsum (map (fun v => fsq (stdev_compute_sum v (- mean))) vs) /
           fnat (if biased then length vs else (length vs - 1)%nat)).
  Definition stdev_out (biased : bool) len (h : hist) : option F :=
    if (len =? 1)%nat then if biased then Some (fZ 0) else None
    else option_map (fun vs => stdev_val biased (rsum len h / fnat len) vs) (window len h).

  Lemma stdev_makes biased len : 1 <= len ->
    makes (stdev_new len biased) stdev_step anyh (fun _ => stdev_out biased len).
  Proof.
    intros H. destruct (sma_makes len H) as (m & Em & Bm).
    unfold stdev_new, assertb. destruct (Nat.leb_spec 1 len); [|lia]. cbn [rbind]. rewrite Em; cbn [rbind].
    eexists; split; [reflexivity|]. intros c xs _.
    apply (@run_spec F _ _ _ stdev_step (fun h s => sd_len s = len /\ sd_biased s = biased /\
      (len <> 1 -> sd_cache s = mkWC len h /\ reach sma_step c m h (sd_sma s)))).
    { split; [reflexivity|]. split; [reflexivity|]. intros _; split; [reflexivity|apply reach_nil]. }
    intros h s x (E1 & E3 & E2). destruct s as [l bi sm k]; cbn in E1, E2, E3; subst l bi.
    unfold stdev_step, stdev_out; cbn [sd_len sd_biased sd_cache sd_sma].
    destruct (Nat.eqb_spec len 1) as [->|Hne].
    { eexists; split; [reflexivity|]. split; [reflexivity|]. split; [reflexivity|]. intros C; congruence. }
    destruct (E2 Hne) as (-> & R). rewrite wc_push_eq.
    destruct (reach_step _ _ _ _ _ _ _ x (Bm c) I R) as (s' & Es & R').
    rewrite Es; cbn [rbind]. unfold sma_out. destruct (Nat.eqb_spec len 1); [lia|].
    rewrite wc_all_lastn.
    assert (K : forall o, exists s'', (Ok (mkStdev len biased s' (mkWC len (h ++ [x])), o) : res (stdev_st F * option F)) = Ok (s'', o) /\
      (sd_len s'' = len /\ sd_biased s'' = biased /\
      (len <> 1 -> sd_cache s'' = mkWC len (h ++ [x]) /\ reach sma_step c m (h ++ [x]) (sd_sma s'')))).
    { intros o. eexists; split; [reflexivity|]. split; [reflexivity|]. split; [reflexivity|]. intros _; split; [reflexivity|exact R']. }
    destruct (window len (h ++ [x])) as [vs|] eqn:W; cbn [option_map]; [|apply K].
    pose proof (window_length _ _ _ W) as L. unfold window in W.
    destruct (Nat.leb_spec len (length (h ++ [x]))); [|discriminate].
    apply all_some_Some in W. rewrite W, map_map. unfold stdev_val. rewrite L. destruct biased.
    - apply K.
    - unfold usub. destruct (Nat.leb_spec 1 len); [|lia]. cbn [rbind]. apply K.
  Qed.

  (** ** Extrema *)
  (** The first value that no later one beats, starting from [x]. *)
  Definition beats (cmp : F -> F -> bool) (x : F) (vs : list F) : F :=
    fold_left (fun m v : F => if cmp v m then v else m) vs x.
  Lemma beats_nil cmp x : beats cmp x [] = x. Proof. reflexivity. Qed.
  Lemma beats_cons cmp x v t : beats cmp x (v :: t) = beats cmp (if cmp v x then v else x) t.
  Proof. reflexivity. Qed.
  Definition best (cmp : F -> F -> bool) (vs : list F) : option F :=
    match vs with
    | [] => None
    | x :: t => Some (beats cmp x t)
    end.

  (** [find_loop] returns the index of [best]. *)
  Lemma find_loop_spec cmp arr i m bi :
    find_loop cmp arr i (Some m) (Some bi) =
      match find_loop cmp arr i (Some m) None with Some j => Some j | None => Some bi end /\
    (forall j, find_loop cmp arr i (Some m) None = Some j ->
       (i <= j < i + length arr)%nat /\
       nth_error arr (j - i) = Some (Some (beats cmp m (present arr)))) /\
    (find_loop cmp arr i (Some m) None = None ->
       beats cmp m (present arr) = m).
  Proof.
    revert i m bi; induction arr as [|[x|] arr IH]; intros i m bi; cbn [find_loop present]; rewrite ?beats_nil, ?beats_cons.
    - split; [reflexivity|]. split; [discriminate|reflexivity].
    - destruct (cmp x m).
      + destruct (IH (S i) x i) as (A & B & C). rewrite A.
        destruct (find_loop cmp arr (S i) (Some x) None) as [j|] eqn:E.
        * split; [reflexivity|]. split; [|discriminate]. intros j' Ej; injection Ej as <-.
          destruct (B j eq_refl) as [L N]. cbn [length]. split; [lia|].
          replace (j - i)%nat with (S (j - S i)) by lia. cbn [nth_error]. exact N.
        * split; [reflexivity|]. split; [|discriminate]. intros j' Ej; injection Ej as <-.
          cbn [length]. split; [lia|]. rewrite Nat.sub_diag, (C eq_refl). reflexivity.
      + destruct (IH (S i) m bi) as (A & B & C). split; [exact A|]. split; [|exact C].
        intros j Ej. destruct (B j Ej) as [L N]. cbn [length]. split; [lia|].
        replace (j - i)%nat with (S (j - S i)) by lia. exact N.
    - destruct (IH (S i) m bi) as (A & B & C). split; [exact A|]. split; [|exact C].
      intros j Ej. destruct (B j Ej) as [L N]. cbn [length]. split; [lia|].
      replace (j - i)%nat with (S (j - S i)) by lia. exact N.
  Qed.

  Lemma find_loop_start cmp arr i :
    match find_loop cmp arr i None None with
    | Some j => (i <= j < i + length arr)%nat /\ nth_error arr (j - i) = Some (best cmp (present arr)) /\ present arr <> []
    | None => present arr = []
    end.
  Proof.
    revert i; induction arr as [|[x|] arr IH]; intros i; cbn [find_loop present].
    - reflexivity.
    - destruct (find_loop_spec cmp arr (S i) x i) as (A & B & C). rewrite A.
      destruct (find_loop cmp arr (S i) (Some x) None) as [j|] eqn:E.
      + destruct (B j eq_refl) as [L N]. cbn [length]. split; [lia|]. split; [|discriminate].
        replace (j - i)%nat with (S (j - S i)) by lia. exact N.
      + cbn [length]. split; [lia|]. split; [|discriminate].
        rewrite Nat.sub_diag. cbn [best nth_error]. rewrite (C eq_refl). reflexivity.
    - specialize (IH (S i)). destruct (find_loop cmp arr (S i) None None) as [j|]; [|exact IH].
      destruct IH as (L & N & P). cbn [length]. split; [lia|]. split; [|exact P].
      replace (j - i)%nat with (S (j - S i)) by lia. exact N.
  Qed.

  Lemma find_index_spec cmp arr : arr <> [] ->
    exists i, find_index cmp arr = Ok i /\ (i < length arr)%nat /\
              nth_error arr i = Some (best cmp (present arr)).
  Proof.
    intros H. unfold find_index, assertb.
    destruct (Nat.eqb_spec (length arr) 0) as [E|E]; [destruct arr; [congruence|discriminate]|]. cbn [negb rbind].
    pose proof (find_loop_start cmp arr 0) as S0.
    destruct (find_loop cmp arr 0 None None) as [j|].
    - destruct S0 as (L & N & _). rewrite Nat.sub_0_r in N. exists j; repeat split; [lia|exact N].
    - unfold usub. destruct (Nat.leb_spec 1 (length arr)); [|lia].
      exists (length arr - 1)%nat. repeat split; [lia|]. rewrite S0. cbn [best].
      destruct (nth_error arr (length arr - 1)) as [v|] eqn:Ev.
      + apply nth_error_In in Ev. apply present_nil in S0. rewrite Forall_forall in S0.
        rewrite (S0 _ Ev). reflexivity.
      + apply nth_error_None in Ev. lia.
  Qed.

  Lemma highest_best arr : arr <> [] -> highest arr = Ok (best (fun v m => m <? v) (present arr)).
  Proof.
    intros H. unfold highest, find_max_index.
    destruct (find_index_spec (fun v m => fgtb v m) arr H) as (i & E & L & N).
    rewrite E; cbn [rbind]. unfold vget. rewrite N. reflexivity.
  Qed.
  Lemma lowest_best arr : arr <> [] -> lowest arr = Ok (best (fun v m => v <? m) (present arr)).
  Proof.
    intros H. unfold lowest, find_min_index.
    destruct (find_index_spec (fun v m => v <? m) arr H) as (i & E & L & N).
    rewrite E; cbn [rbind]. unfold vget. rewrite N. reflexivity.
  Qed.

  Definition highest_out len i0 (h : hist) : option F :=
    if (len <=? i0 + length h)%nat then best (fun v m => m <? v) (present (lastn len h)) else None.
  Definition lowest_out len i0 (h : hist) : option F :=
    if (len <=? i0 + length h)%nat then best (fun v m => v <? m) (present (lastn len h)) else None.

  Lemma lastn_snoc_nonnil {A} len (h : list A) x : 1 <= len -> lastn len (h ++ [x]) <> [].
  Proof.
    intros H E. apply (f_equal (@length A)) in E. rewrite length_lastn, app_length in E. cbn in E. lia.
  Qed.

  Lemma highest_makes len : 1 <= len -> makes (highest_new len) highest_step anyh (highest_out len).
  Proof.
    intros H. unfold highest_new, assertb. destruct (Nat.leb_spec 1 len); [|lia]. cbn [rbind].
    eexists; split; [reflexivity|]. intros c xs _.
    apply (@run_spec F _ _ _ highest_step (fun h s => s = mkWindow len (mkWC len h))); [reflexivity|].
    intros h s x ->. unfold highest_step; cbn [wi_len wi_cache]. rewrite wc_push_eq.
    rewrite at_length_ok, ctx_at_index by exact H. cbn [rbind]. unfold highest_out.
    rewrite app_length; cbn [length]. rewrite Nat.add_assoc.
    destruct (Nat.leb_spec len (c_index c + length h + 1)); cbn [negb].
    - rewrite wc_all_lastn, highest_best by (apply lastn_snoc_nonnil; exact H). cbn [rbind].
      eexists; split; reflexivity.
    - eexists; split; reflexivity.
  Qed.
  Lemma lowest_makes len : 1 <= len -> makes (lowest_new len) lowest_step anyh (lowest_out len).
  Proof.
    intros H. unfold lowest_new, assertb. destruct (Nat.leb_spec 1 len); [|lia]. cbn [rbind].
    eexists; split; [reflexivity|]. intros c xs _.
    apply (@run_spec F _ _ _ lowest_step (fun h s => s = mkWindow len (mkWC len h))); [reflexivity|].
    intros h s x ->. unfold lowest_step; cbn [wi_len wi_cache]. rewrite wc_push_eq.
    rewrite at_length_ok, ctx_at_index by exact H. cbn [rbind]. unfold lowest_out.
    rewrite app_length; cbn [length]. rewrite Nat.add_assoc.
    destruct (Nat.leb_spec len (c_index c + length h + 1)); cbn [negb].
    - rewrite wc_all_lastn, lowest_best by (apply lastn_snoc_nonnil; exact H). cbn [rbind].
      eexists; split; reflexivity.
    - eexists; split; reflexivity.
  Qed.

  (** ** Prank *)
  Definition prank_val (len : nat) (last : F) (older : hist) : F :=
    fnat (length (filter (fun v => match v with Some x => x <=? last | None => false end) older))
      / fnat len * fZ 100.
  (** [h]: the history including the current value. *)
  Definition prank_out len i0 (h : hist) : option F :=
    match join (newest h) with
    | None => None
    | Some last =>
        if (len <? i0 + length h)%nat then Some (prank_val len last (lastn len (removelast h))) else None
    end.

  Lemma prank_makes len : 1 <= len -> makes (prank_new len) prank_step anyh (prank_out len).
  Proof.
    intros H. unfold prank_new, assertb. destruct (Nat.leb_spec 1 len); [|lia]. cbn [rbind].
    eexists; split; [reflexivity|]. intros c xs _.
    apply (@run_spec F _ _ _ prank_step (fun h s => s = mkWindow len (mkWC (len + 1) h))); [reflexivity|].
    intros h s x ->. unfold prank_step; cbn [wi_len wi_cache]. rewrite wc_push_eq.
    unfold prank_out. rewrite newest_snoc, removelast_last; cbn [join].
    destruct x as [v|]; [|eexists; split; reflexivity].
    rewrite at_length_ok, ctx_at_index by lia. cbn [rbind].
    rewrite app_length; cbn [length]. rewrite Nat.add_assoc.
    destruct (Nat.leb_spec (len + 1) (c_index c + length h + 1)), (Nat.ltb_spec len (c_index c + length h + 1));
      try lia; cbn [negb]; [|eexists; split; reflexivity].
    rewrite wc_all_lastn, Nat.add_1_r, lastn_S_snoc. unfold usub, vslice.
    rewrite app_length; cbn [length].
    destruct (Nat.leb_spec 1 (length (lastn len h) + 1)); [|lia]. cbn [rbind].
    destruct (Nat.leb_spec (length (lastn len h) + 1 - 1) (length (lastn len h) + 1)); [|lia].
    cbn [Nat.leb andb rbind skipn]. rewrite Nat.sub_0_r.
    replace (length (lastn len h) + 1 - 1)%nat with (length (lastn len h)) by lia.
    rewrite firstn_app, Nat.sub_diag, firstn_all, firstn_O, app_nil_r.
    eexists; split; reflexivity.
  Qed.

  (** ** Rsi *)
  (** gain and loss between two consecutive inputs. *)
  Definition rsi_gain (prev cur : option F) : option F :=
    match prev, cur with Some p, Some v => Some (fmax (v - p) (fZ 0)) | _, _ => None end.
  Definition rsi_loss (prev cur : option F) : option F :=
    match prev, cur with Some p, Some v => Some (- fmin (v - p) (fZ 0)) | _, _ => None end.
  (** the series of gains and losses of a history. *)
  Definition gains (h : hist) : hist :=
    each_prefix (fun p => rsi_gain (join (ago 1 p)) (join (newest p))) h.
  Definition losses (h : hist) : hist :=
    each_prefix (fun p => rsi_loss (join (ago 1 p)) (join (newest p))) h.
  Definition rsi_val (up down : option F) : option F :=
    match up, down with
    | Some u, Some d => Some (fZ 100 - fZ 100 / (fZ 1 + u / d))
    | _, _ => None
    end.
  Definition rsi_out len (h : hist) : option F :=
    rsi_val (ema_out (rma_alpha_of len) len (gains h)) (ema_out (rma_alpha_of len) len (losses h)).

  Lemma warmed_gains_gen (g : option F -> option F -> option F) (h : hist) :
    (forall p v, g (Some p) (Some v) <> None) -> (forall v, g None v = None) ->
    (forall p, g p None = None) -> warmed h ->
    warmed (each_prefix (fun p => g (join (ago 1 p)) (join (newest p))) h).
  Proof.
    intros G1 G2 G3 W. apply warmed_each_prefix. intros p x (t & E) Hp Hd.
    rewrite newest_snoc, ago_S_snoc; cbn [join].
    destruct p as [|y p] using rev_ind; [congruence|]. clear IHp.
    rewrite newest_snoc, ago_S_snoc in Hd. rewrite ago_0_snoc; cbn [join] in *.
    destruct y as [y|]; [|rewrite G3 in Hd; congruence].
    destruct x as [x|]; [apply G1|]. exfalso.
    assert (W' : warmed ((p ++ [Some y]) ++ [None])).
    { apply (warmed_app_l _ t). rewrite <- app_assoc. cbn. rewrite E in W. exact W. }
    apply warmed_snoc in W'. destruct W' as [_ P]. specialize (P eq_refl).
    rewrite present_snoc_Some in P. destruct (present p); discriminate.
  Qed.

  Lemma warmed_gains h : warmed h -> warmed (gains h).
  Proof. apply warmed_gains_gen; intros; try discriminate; try reflexivity. destruct p; reflexivity. Qed.
  Lemma warmed_losses h : warmed h -> warmed (losses h).
  Proof. apply warmed_gains_gen; intros; try discriminate; try reflexivity. destruct p; reflexivity. Qed.

  Lemma gains_snoc h x : gains (h ++ [x]) = gains h ++ [rsi_gain (join (newest h)) x].
  Proof.
    unfold gains. rewrite each_prefix_snoc, newest_snoc, ago_S_snoc. cbn [join]. do 3 f_equal.
    destruct h as [|y h] using rev_ind; [reflexivity|]. rewrite newest_snoc, ago_0_snoc. reflexivity.
  Qed.
  Lemma losses_snoc h x : losses (h ++ [x]) = losses h ++ [rsi_loss (join (newest h)) x].
  Proof.
    unfold losses. rewrite each_prefix_snoc, newest_snoc, ago_S_snoc. cbn [join]. do 3 f_equal.
    destruct h as [|y h] using rev_ind; [reflexivity|]. rewrite newest_snoc, ago_0_snoc. reflexivity.
  Qed.
  Lemma length_gains h : length (gains h) = length h.
  Proof. apply length_each_prefix. Qed.
  Lemma length_losses h : length (losses h) = length h.
  Proof. apply length_each_prefix. Qed.

  Lemma rsi_makes len : 2 <= len -> makes (rsi_new len) rsi_step warmed (fun _ => rsi_out len).
  Proof.
    intros H. destruct (rma_makes len ltac:(lia)) as (m & Em & Bm).
    unfold rsi_new, assertb. destruct (Nat.leb_spec 2 len); [|lia]. cbn [rbind]. rewrite Em; cbn [rbind].
    eexists; split; [reflexivity|]. intros c xs W.
    destruct (@run_inv F _ _ _ rsi_step (fun h s => rsi_prev s = join (newest h) /\
        reach rma_step c m (gains h) (rsi_up s) /\ reach rma_step c m (losses h) (rsi_down s))
        (rsi_out len) c (mkRsi m m None None None) xs) as (sf & E & _).
    - split; [reflexivity|]. split; apply reach_nil.
    - intros h s x (E1 & R1 & R2) (t & Ex). destruct s as [su sd sp a b]; cbn in E1, R1, R2.
      assert (W' : warmed (h ++ [x])).
      { apply (warmed_app_l _ t). rewrite <- app_assoc. rewrite Ex in W. exact W. }
      unfold rsi_step; cbn [rsi_up rsi_down rsi_prev rsi_data_up rsi_data_down].
      set (pr := match sp, x with Some p, Some v => _ | _, _ => _ end).
      assert (Epr : pr = (rsi_gain sp x, rsi_loss sp x)).
      { unfold pr, rsi_gain, rsi_loss. destruct sp, x; reflexivity. }
      rewrite Epr; cbv zeta. clear pr Epr. subst sp.
      pose proof (warmed_gains _ W') as Wg. pose proof (warmed_losses _ W') as Wl.
      rewrite gains_snoc in Wg. rewrite losses_snoc in Wl.
      destruct (reach_step _ _ _ _ _ _ _ _ (Bm c) Wg R1) as (u' & Eu & Ru).
      destruct (reach_step _ _ _ _ _ _ _ _ (Bm c) Wl R2) as (w' & Ew & Rw).
      rewrite length_gains in Eu. rewrite length_losses in Ew.
      rewrite Eu; cbn [rbind]. rewrite Ew; cbn [rbind].
      unfold rsi_out. rewrite gains_snoc, losses_snoc.
      destruct (ema_out (rma_alpha_of len) len (gains h ++ _)) as [u|] eqn:EU,
               (ema_out (rma_alpha_of len) len (losses h ++ _)) as [w|] eqn:EW; cbn [rsi_val];
        (eexists; split; [reflexivity|]; split; [rewrite newest_snoc; reflexivity|]; split; assumption).
    - unfold run. cbn in E. rewrite E. reflexivity.
  Qed.

  (** ** Stoch *)
  Definition stoch_val (v h l : F) : F := fZ 100 * (v - l) / (h - l).
  (** newest input first. *)
  Fixpoint stoch_hist len i0 (rh : list (option F * option F * option F)) : option F :=
    match rh with
    | [] => None
    | x :: older =>
        if (len <=? i0 + length rh)%nat then
          match fst (fst x),
                best (fun v m => m <? v) (present (lastn len (rev (map (fun y => snd (fst y)) rh)))),
                best (fun v m => v <? m) (present (lastn len (rev (map snd rh)))) with
          | Some v, Some h, Some l =>
              if h - l ==? fZ 0 then stoch_hist len i0 older else Some (stoch_val v h l)
          | _, _, _ => None
          end
        else None
    end.
  Definition stoch_out len i0 (h : list (option F * option F * option F)) : option F :=
    stoch_hist len i0 (rev h).

  Lemma stoch_out_snoc len i0 h v hi lo :
    stoch_out len i0 (h ++ [(v, hi, lo)]) =
    if (len <=? i0 + length h + 1)%nat then
      match v, best (fun v m => m <? v) (present (lastn len (map (fun y => snd (fst y)) h ++ [hi]))),
            best (fun v m => v <? m) (present (lastn len (map snd h ++ [lo]))) with
      | Some v, Some mx, Some mn =>
          if mx - mn ==? fZ 0 then stoch_out len i0 h else Some (stoch_val v mx mn)
      | _, _, _ => None
      end
    else None.
  Proof.
    unfold stoch_out. rewrite rev_app_distr. cbn [map rev app]. cbn [stoch_hist length fst snd map rev].
    rewrite rev_length, !map_rev, !rev_involutive.
    replace (i0 + S (length h))%nat with (i0 + length h + 1)%nat by lia. reflexivity.
  Qed.
  Lemma stoch_out_early len i0 h : (i0 + length h < len)%nat -> stoch_out len i0 h = None.
  Proof.
    intros L. unfold stoch_out. pose proof (rev_length h) as LR. destruct (rev h) as [|y rh]; [reflexivity|].
    cbn [stoch_hist]. rewrite LR. destruct (Nat.leb_spec len (i0 + length h)); [lia|reflexivity].
  Qed.

  Lemma stoch_makes len : 1 <= len -> makes (stoch_new len) stoch_step anyh (stoch_out len).
  Proof.
    intros H. unfold stoch_new, assertb. destruct (Nat.leb_spec 1 len); [|lia]. cbn [rbind].
    eexists; split; [reflexivity|]. intros c xs _.
    apply (@run_spec F _ _ _ stoch_step (fun h s =>
      s = mkStoch len (stoch_out len (c_index c) h) (mkWC len (map (fun y => snd (fst y)) h))
                  (mkWC len (map snd h)))); [reflexivity|].
    intros h s [[v hi] lo] ->. unfold stoch_step; cbn [st_len st_prev st_high st_low].
    rewrite !wc_push_eq, at_length_ok, ctx_at_index by exact H. cbn [rbind].
    rewrite stoch_out_snoc, !map_app. cbn [map fst snd].
    destruct (Nat.leb_spec len (c_index c + length h + 1)); cbn [negb].
    2:{ rewrite stoch_out_early by lia. eexists; split; reflexivity. }
    rewrite !wc_all_lastn. unfold stoch.
    destruct v as [v|]; [|eexists; split; reflexivity].
    rewrite highest_best, lowest_best by (apply lastn_snoc_nonnil; exact H). cbn [rbind].
    destruct (best _ (present (lastn len (map _ h ++ [hi])))) as [mx|]; [|eexists; split; reflexivity].
    destruct (best _ (present (lastn len (map _ h ++ [lo])))) as [mn|]; [|eexists; split; reflexivity].
    destruct (mx - mn ==? fZ 0); cbn [rbind]; eexists; split; reflexivity.
  Qed.

  (** ** Crosses *)
  Definition cross_at (h : list (option F * option F)) (P : F -> F -> F -> F -> bool) : bool :=
    match ago 1 h, newest h with
    | Some (Some pa, Some pb), Some (Some a, Some b) => P a b pa pb
    | _, _ => false
    end.
  Definition cross_out (h : list (option F * option F)) : option cross_mode :=
    if cross_at h cross_over then Some Over
    else if cross_at h cross_under then Some Under else None.

  Definition last_pair (h : list (option F * option F)) : option F * option F :=
    match newest h with Some x => x | None => (None, None) end.
  Lemma ago1_snoc {A} (h : list A) x : ago 1 (h ++ [x]) = newest h.
  Proof.
    rewrite ago_S_snoc. destruct h as [|y h] using rev_ind; [reflexivity|].
    rewrite newest_snoc, ago_0_snoc. reflexivity.
  Qed.

  Lemma cross_makes : makes (Ok (cross_new : cross_st F)) cross_step anyh (fun _ => cross_out).
  Proof.
    eexists; split; [reflexivity|]. intros c xs _.
    apply (@run_spec F _ _ _ cross_step (fun h s => s = last_pair h)); [reflexivity|].
    intros h s [a b] ->. unfold cross_step. eexists; split.
    2:{ unfold last_pair. rewrite newest_snoc. reflexivity. }
    unfold cross_out, cross_at. rewrite newest_snoc, ago1_snoc. unfold last_pair.
    destruct (newest h) as [[[pa|] [pb|]]|], a as [a|], b as [b|]; reflexivity.
  Qed.
  Lemma crossover_makes : makes (Ok (cross_new : cross_st F)) crossover_step anyh (fun _ h => cross_at h cross_over).
  Proof.
    eexists; split; [reflexivity|]. intros c xs _.
    apply (@run_spec F _ _ _ crossover_step (fun h s => s = last_pair h)); [reflexivity|].
    intros h s [a b] ->. unfold crossover_step. eexists; split.
    2:{ unfold last_pair. rewrite newest_snoc. reflexivity. }
    unfold cross_at. rewrite newest_snoc, ago1_snoc. unfold last_pair.
    destruct (newest h) as [[[pa|] [pb|]]|], a as [a|], b as [b|]; reflexivity.
  Qed.
  Lemma crossunder_makes : makes (Ok (cross_new : cross_st F)) crossunder_step anyh (fun _ h => cross_at h cross_under).
  Proof.
    eexists; split; [reflexivity|]. intros c xs _.
    apply (@run_spec F _ _ _ crossunder_step (fun h s => s = last_pair h)); [reflexivity|].
    intros h s [a b] ->. unfold crossunder_step. eexists; split.
    2:{ unfold last_pair. rewrite newest_snoc. reflexivity. }
    unfold cross_at. rewrite newest_snoc, ago1_snoc. unfold last_pair.
    destruct (newest h) as [[[pa|] [pb|]]|], a as [a|], b as [b|]; reflexivity.
  Qed.

  (** against a constant line. *)
  Definition with_line (t : F) (h : hist) : list (option F * option F) := map (fun v => (v, Some t)) h.
  Lemma newest_map {A B} (g : A -> B) h : newest (map g h) = option_map g (newest h).
  Proof. unfold newest. rewrite map_length, nth_error_map. reflexivity. Qed.
  Lemma ago_map {A B} (g : A -> B) k h : ago k (map g h) = option_map g (ago k h).
  Proof. unfold ago. rewrite map_length, nth_error_map. destruct (k <? length h)%nat; reflexivity. Qed.
  Lemma cross_at_line t h P :
    cross_at (with_line t h) P =
    match join (ago 1 h), join (newest h) with Some p, Some v => P v t p t | _, _ => false end.
  Proof.
    unfold cross_at, with_line. rewrite newest_map, ago_map.
    destruct (ago 1 h) as [[p|]|], (newest h) as [[v|]|]; reflexivity.
  Qed.

  Lemma crossover_t_makes t : makes (Ok (crosst_new t)) crossover_t_step anyh (fun _ h => cross_at (with_line t h) cross_over).
  Proof.
    eexists; split; [reflexivity|]. intros c xs _.
    apply (@run_spec F _ _ _ crossover_t_step (fun h s => s = mkCrossT t (join (newest h)))); [reflexivity|].
    intros h s x ->. unfold crossover_t_step; cbn [ct_threshold ct_prev]. eexists; split.
    2:{ rewrite newest_snoc. reflexivity. }
    rewrite cross_at_line, newest_snoc, ago1_snoc; cbn [join]. destruct (join (newest h)), x; reflexivity.
  Qed.
  Lemma crossunder_t_makes t : makes (Ok (crosst_new t)) crossunder_t_step anyh (fun _ h => cross_at (with_line t h) cross_under).
  Proof.
    eexists; split; [reflexivity|]. intros c xs _.
    apply (@run_spec F _ _ _ crossunder_t_step (fun h s => s = mkCrossT t (join (newest h)))); [reflexivity|].
    intros h s x ->. unfold crossunder_t_step; cbn [ct_threshold ct_prev]. eexists; split.
    2:{ rewrite newest_snoc. reflexivity. }
    rewrite cross_at_line, newest_snoc, ago1_snoc; cbn [join]. destruct (join (newest h)), x; reflexivity.
  Qed.
  Lemma cross_t_makes t : makes (Ok (crosst_new t)) cross_t_step anyh (fun _ h => cross_out (with_line t h)).
  Proof.
    eexists; split; [reflexivity|]. intros c xs _.
    apply (@run_spec F _ _ _ cross_t_step (fun h s => s = mkCrossT t (join (newest h)))); [reflexivity|].
    intros h s x ->. unfold cross_t_step; cbn [ct_threshold ct_prev]. eexists; split.
    2:{ rewrite newest_snoc. reflexivity. }
    unfold cross_out. rewrite !cross_at_line, newest_snoc, ago1_snoc; cbn [join]. destruct (join (newest h)), x; reflexivity.
  Qed.

  (** ** Boxes and Ma *)
  Lemma makes_box {S I O} (new : res S) (step : ctx F -> S -> I -> res (S * O)) dom f :
    makes new step dom f -> makes (s <- new ;; Ok (box step s)) ostep dom f.
  Proof.
    intros (s & -> & B). eexists; split; [reflexivity|]. intros c. apply behaves_box, B.
  Qed.

  Definition ma_out (k : ma_kind) (len i0 : nat) (h : hist) : option F :=
    match k with
    | SMA => sma_out len h
    | EMA => ema_out (ema_alpha_of len) len h
    | RMA => ema_out (rma_alpha_of len) len h
    | SWMA => swma_out i0 h
    end.
  Lemma makes_weaken {S I O} (new : res S) (step : ctx F -> S -> I -> res (S * O)) (dom dom' : list I -> Prop) f :
    makes new step dom f -> (forall h, dom' h -> dom h) -> makes new step dom' f.
  Proof. intros (s & E & B) H. exists s; split; [exact E|]. intros c xs D. apply B, H, D. Qed.
  Lemma ma_makes k len : 1 <= len -> makes (ma_new k len) ma_step warmed (ma_out k len).
  Proof.
    intros H. destruct k; cbn [ma_new].
    - apply makes_box, makes_weaken with (dom := anyh); [apply sma_makes; exact H|intros; exact I].
    - apply makes_box, ema_makes; exact H.
    - apply makes_box, rma_makes; exact H.
    - apply makes_box, makes_weaken with (dom := anyh); [apply swma_makes|intros; exact I].
  Qed.

  (** Unconditional: a boxed average is the average it wraps, panics included. *)
  Lemma ma_run_sma len c xs : run_new (ma_new SMA len) ma_step c xs = run_new (sma_new len) sma_step c xs.
  Proof. unfold run_new, ma_new, ma_step. destruct (sma_new len); [|reflexivity]. cbn [rbind]. apply run_box. Qed.
  Lemma ma_run_ema len c xs : run_new (ma_new EMA len) ma_step c xs = run_new (ema_new len) ema_step c xs.
  Proof. unfold run_new, ma_new, ma_step. destruct (ema_new len); [|reflexivity]. cbn [rbind]. apply run_box. Qed.
  Lemma ma_run_rma len c xs : run_new (ma_new RMA len) ma_step c xs = run_new (rma_new len) rma_step c xs.
  Proof. unfold run_new, ma_new, ma_step. destruct (rma_new len); [|reflexivity]. cbn [rbind]. apply run_box. Qed.
  Lemma ma_run_swma len c xs : run_new (ma_new SWMA len) ma_step c xs = run_new swma_new swma_step c xs.
  Proof. unfold run_new, ma_new, ma_step. destruct swma_new; [|reflexivity]. cbn [rbind]. apply run_box. Qed.
End Ta3.
