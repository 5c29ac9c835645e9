(** * PContent1: bar-driven components, part 1. *)
From Verif Require Export PTa3.

Section Bars.
  Context {F : Type} {NF : Num F}.
  Local Open Scope num_scope.
  Local Notation bars := (list (bar F)).

  (** *** Reads of the previous bar *)
  Lemma read_p_high (c : ctx F) h b t : fresh_over c (h ++ b :: t) ->
    ctx_high (ctx_at c (length h)) 1 = Ok (cur b_high h).
  Proof. intros H. rewrite (read_prev_high _ _ _ _ H), prv_ago, prv_snoc. reflexivity. Qed.
  Lemma read_p_low (c : ctx F) h b t : fresh_over c (h ++ b :: t) ->
    ctx_low (ctx_at c (length h)) 1 = Ok (cur b_low h).
  Proof. intros H. rewrite (read_prev_low _ _ _ _ H), prv_ago, prv_snoc. reflexivity. Qed.
  Lemma read_p_close (c : ctx F) h b t : fresh_over c (h ++ b :: t) ->
    ctx_close (ctx_at c (length h)) 1 = Ok (cur b_close h).
  Proof. intros H. rewrite (read_prev_close _ _ _ _ H), prv_ago, prv_snoc. reflexivity. Qed.

  Lemma read_at_length (c : ctx F) h b t len : fresh_over c (h ++ b :: t) -> 1 <= len ->
    at_length (ctx_at c (length h)) len = Ok (len <=? length (h ++ [b]))%nat.
  Proof.
    intros H L. rewrite at_length_ok by exact L. rewrite (fresh_index _ _ _ _ H), app_length. reflexivity.
  Qed.

  Lemma fresh_c_index (c : ctx F) bs : fresh_over c bs -> c_index c = 0.
  Proof. intros [_ H]; exact H. Qed.

  Lemma forall_mid {A} (P : A -> Prop) h b t : Forall P (h ++ b :: t) -> P b.
  Proof. intros H. apply Forall_elt in H. exact H. Qed.
  Lemma forall_hd {A} (P : A -> Prop) h b t : Forall P (h ++ b :: t) -> Forall P (h ++ [b]).
  Proof.
    intros H. apply Forall_app in H. destruct H as [H1 H2]. inversion H2; subst.
    apply Forall_app; split; [exact H1|constructor; [assumption|constructor]].
  Qed.
  Lemma all_defined_warmed {A B} (f : list A -> option B) zs :
    (forall h x, (exists t, zs = h ++ x :: t) -> f (h ++ [x]) <> None) -> warmed (each_prefix f zs).
  Proof. intros H. apply warmed_each_prefix. intros h x E _ _. apply H, E. Qed.

  (** ** Src *)
  Definition src_of (k : src_kind) (b : bar F) : option F :=
    match k with
    | SOpen => b_open b | SHigh => b_high b | SLow => b_low b | SClose => b_close b
    | SVolume => b_volume b
    | SOHLC4 => match b_open b, b_high b, b_low b, b_close b with
                | Some o, Some h, Some l, Some c => Some (ohlc4 o h l c) | _, _, _, _ => None end
    | SHLC3 => match b_high b, b_low b, b_close b with
               | Some h, Some l, Some c => Some (hlc3 h l c) | _, _, _ => None end
    | SHL2 => match b_high b, b_low b with
              | Some h, Some l => Some (hl2 h l) | _, _ => None end
    end.
  (** the prices an averaged source needs. *)
  Definition src_ok (k : src_kind) (b : bar F) : Prop :=
    match k with
    | SOHLC4 | SHLC3 | SHL2 => src_of k b <> None
    | _ => True
    end.

  Lemma src_value_ok k c h b t : fresh_over c (h ++ b :: t) ->
    (src_ok k b -> src_value k (ctx_at c (length h)) = Ok (src_of k b)) /\
    (~ src_ok k b -> src_value k (ctx_at c (length h)) = Panic).
  Proof.
    intros H. unfold src_value, src_ok, src_of.
    rewrite (read_open _ _ _ _ H), (read_high _ _ _ _ H), (read_low _ _ _ _ H),
            (read_close _ _ _ _ H), (read_volume _ _ _ _ H).
    destruct k; cbn [rbind]; try (split; [reflexivity|tauto]);
      destruct (b_open b), (b_high b), (b_low b), (b_close b); cbn [unwrap rbind];
      split; intros; try reflexivity; exfalso; try congruence;
      match goal with H : ~ (Some _ <> None) |- _ => apply H; discriminate end.
  Qed.

  Lemma src_run k c bs : fresh_over c bs -> Forall (src_ok k) bs ->
    run (src_step k) c tt (ticks (length bs)) = Ok (map (src_of k) bs).
  Proof.
    intros H D. rewrite <- each_prefix_cur.
    apply run_ticks with (inv := fun _ s => s = tt); [reflexivity|].
    intros h s b t E ->. subst bs. exists tt. split; [|reflexivity].
    unfold src_step. rewrite (proj1 (src_value_ok k c h b t H)) by (eapply forall_mid; eassumption).
    rewrite cur_snoc. reflexivity.
  Qed.

  Lemma src_feeds k c bs : fresh_over c bs -> Forall (src_ok k) bs ->
    feeds c (src_box k) (map (src_of k) bs).
  Proof. intros H D. unfold feeds, src_box. rewrite run_box, map_length. apply src_run; assumption. Qed.

  (** ** Tr *)
  Definition has_hl (b : bar F) : Prop := b_high b <> None /\ b_low b <> None.
  Definition has_hlc (b : bar F) : Prop := b_high b <> None /\ b_low b <> None /\ b_close b <> None.

  Definition tr_out (na : bool) (h : bars) : option F :=
    match cur b_high h, cur b_low h with
    | Some hi, Some lo => true_range hi lo (prv b_high h) (prv b_low h) (prv b_close h) na
    | _, _ => None
    end.

  Lemma tr_run na c bs : fresh_over c bs -> Forall has_hl bs ->
    run tr_step c na (ticks (length bs)) = Ok (each_prefix (tr_out na) bs).
  Proof.
    intros H D. apply run_ticks with (inv := fun _ s => s = na); [reflexivity|].
    intros h s b t E ->. subst bs. exists na. split; [|reflexivity].
    apply forall_mid in D. destruct D as [D1 D2].
    unfold tr_step, tr_out. rewrite (read_high _ _ _ _ H), (read_low _ _ _ _ H), (read_p_high _ _ _ _ H),
      (read_p_low _ _ _ _ H), (read_p_close _ _ _ _ H). cbn [rbind].
    rewrite !cur_snoc, !prv_snoc.
    destruct (b_high b); [|congruence]. destruct (b_low b); [|congruence]. reflexivity.
  Qed.

  Lemma tr_out_defined h : Forall has_hl h -> h <> [] -> tr_out true h <> None.
  Proof.
    intros D N. destruct h as [|b h] using rev_ind; [congruence|]. clear IHh N.
    apply forall_mid in D. destruct D as [D1 D2]. unfold tr_out. rewrite !cur_snoc, !prv_snoc.
    destruct (b_high b); [|congruence]. destruct (b_low b); [|congruence].
    unfold true_range. destruct (cur b_high h), (cur b_low h), (cur b_close h); discriminate.
  Qed.
  Lemma tr_out_warmed_true bs : Forall has_hl bs -> warmed (each_prefix (tr_out true) bs).
  Proof.
    intros D. apply all_defined_warmed. intros h x (t & ->).
    apply tr_out_defined; [eapply forall_hd; exact D|destruct h; discriminate].
  Qed.
  Lemma has_hlc_hl b : has_hlc b -> has_hl b.
  Proof. unfold has_hlc, has_hl; tauto. Qed.
  Lemma Forall_hlc_hl bs : Forall has_hlc bs -> Forall has_hl bs.
  Proof. apply Forall_impl, has_hlc_hl. Qed.
  Lemma cur_defined {B} (k : bar F -> option B) h b : k b <> None -> cur k (h ++ [b]) <> None.
  Proof. rewrite cur_snoc. auto. Qed.

  (** defined from the second bar on when all prices are there. *)
  Lemma tr_out_false_defined h b b' : has_hlc b -> has_hlc b' -> tr_out false ((h ++ [b]) ++ [b']) <> None.
  Proof.
    intros (A1 & A2 & A3) (B1 & B2 & B3). unfold tr_out. rewrite !cur_snoc, !prv_snoc, !cur_snoc.
    destruct (b_high b'); [|congruence]. destruct (b_low b'); [|congruence].
    unfold true_range. destruct (b_high b); [|congruence]. destruct (b_low b); [|congruence].
    destruct (b_close b); [|congruence]. discriminate.
  Qed.
  Lemma tr_out_warmed_false bs : Forall has_hlc bs -> warmed (each_prefix (tr_out false) bs).
  Proof.
    intros D. apply warmed_each_prefix. intros h x (t & E) Hn _.
    destruct h as [|y h] using rev_ind; [congruence|]. clear IHh Hn. subst bs.
    pose proof (forall_mid _ _ _ _ D) as Dx.
    rewrite <- app_assoc in D. cbn in D. pose proof (forall_mid _ _ _ _ D) as Dy.
    apply tr_out_false_defined; assumption.
  Qed.

  (** ** Atr *)
  Definition atr_out len (h : bars) : option F :=
    ema_out (rma_alpha_of len) len (each_prefix (tr_out true) h).

  Lemma atr_run len c bs : 1 <= len -> fresh_over c bs -> Forall has_hl bs ->
    exists s, atr_new len = Ok s /\
      run atr_step c s (ticks (length bs)) = Ok (each_prefix (atr_out len) bs).
  Proof.
    intros L H D. destruct (rma_makes len L) as (m & Em & Bm).
    unfold atr_new, assertb. destruct (Nat.leb_spec 1 len); [|lia]. cbn [rbind]. rewrite Em; cbn [rbind].
    eexists; split; [reflexivity|].
    pose proof (tr_run true c bs H D) as HT.
    apply run_ticks with (inv := fun h s => reach tr_step c true (ticks (length h)) (atr_tr s) /\
       reach rma_step c m (each_prefix (tr_out true) h) (atr_rma s)).
    { split; apply reach_nil. }
    intros h s b t E (R1 & R2). destruct s as [st sr]; cbn in R1, R2.
    unfold atr_step; cbn [atr_tr atr_rma].
    destruct (tick_step _ _ _ _ _ _ _ _ _ HT E R1) as (t' & Et & Rt). rewrite Et; cbn [rbind].
    assert (W : warmed (each_prefix (tr_out true) (h ++ [b]))).
    { apply tr_out_warmed_true. subst bs. eapply forall_hd; exact D. }
    destruct (sub_step _ _ _ _ _ _ _ _ _ (Bm c) W R2) as (r' & Er & Rr). rewrite Er; cbn [rbind].
    eexists; split; [reflexivity|]. split; assumption.
  Qed.

  Lemma atr_out_warmed len bs : 1 <= len -> Forall has_hl bs -> warmed (each_prefix (atr_out len) bs).
  Proof.
    intros L D. apply warmed_each_prefix. intros h x (t & ->) N.
    assert (P : exists v, present (each_prefix (tr_out true) (h ++ [x])) = present (each_prefix (tr_out true) h) ++ [v]).
    { rewrite each_prefix_snoc.
      destruct (tr_out true (h ++ [x])) as [v|] eqn:E.
      - exists v. apply present_snoc_Some.
      - exfalso. revert E. apply tr_out_defined; [eapply forall_hd; exact D|destruct h; discriminate]. }
    destruct P as (v & P). unfold atr_out, ema_out. rewrite P.
    generalize (present (each_prefix (tr_out true) h)). intros vs. unfold ema_val.
    destruct (Nat.eqb_spec len 1); [rewrite newest_snoc; discriminate|].
    rewrite app_length. cbn [length].
    destruct (Nat.ltb_spec (length vs) len), (Nat.ltb_spec (length vs + 1) len); try discriminate; try lia.
    intros A; congruence.
  Qed.

  (** ** HighestBars / LowestBars *)
  (** the position, counted from the newest, of the first best value of a
      window; 0 when nothing is present. *)
  Definition best_pos (cmp : F -> F -> bool) (w : list (option F)) : nat :=
    match find_loop cmp w 0 None None with
    | Some i => (length w - 1 - i)%nat
    | None => 0
    end.
  Definition bars_out (cmp : F -> F -> bool) len (w : list (option F)) : option Z :=
    if (len <=? length w)%nat then Some (- Z.of_nat (best_pos cmp (lastn len w)))%Z else None.

  Lemma wrap32_small z : (0 <= z < 2 ^ 31)%Z -> wrap32 z = z.
  Proof.
    intros H. unfold wrap32. rewrite Z.mod_small by lia.
    destruct (Z.ltb_spec z (2 ^ 31)); [reflexivity|lia].
  Qed.

  Lemma bars_offset_ok len i : (i < len)%nat -> (Z.of_nat len <= 2 ^ 31)%Z ->
    bars_offset len i = Ok (- Z.of_nat (len - 1 - i))%Z.
  Proof.
    intros L B. unfold bars_offset, abs_diff, neg32.
    destruct (Nat.ltb_spec len i); [lia|].
    assert (E : (if (len - i <? 1)%nat then 1 - (len - i) else len - i - 1)%nat = (len - 1 - i)%nat).
    { destruct (Nat.ltb_spec (len - i) 1); lia. }
    rewrite E, wrap32_small by lia.
    destruct (Z.eqb_spec (Z.of_nat (len - 1 - i)) (- 2 ^ 31)); [lia|reflexivity].
  Qed.

  Lemma bars_of_window cmp w len : length w = len -> 1 <= len -> (Z.of_nat len <= 2 ^ 31)%Z ->
    (i <- find_index cmp w ;; z <- bars_offset len i ;; Ok (Some z)) =
    Ok (Some (- Z.of_nat (best_pos cmp w))%Z).
  Proof.
    intros L H B. unfold find_index, assertb, best_pos.
    destruct (Nat.eqb_spec (length w) 0); [lia|]. cbn [negb rbind].
    pose proof (find_loop_start cmp w 0) as S0.
    destruct (find_loop cmp w 0 None None) as [j|].
    - cbn [rbind]. rewrite bars_offset_ok by lia. rewrite L. reflexivity.
    - unfold usub. destruct (Nat.leb_spec 1 (length w)); [|lia]. cbn [rbind].
      rewrite bars_offset_ok by lia. replace (len - 1 - (length w - 1))%nat with 0 by lia. reflexivity.
  Qed.

  Lemma highest_bars_run len c bs : 1 <= len -> (Z.of_nat len <= 2 ^ 31)%Z -> fresh_over c bs ->
    run highest_bars_step c len (ticks (length bs)) =
    Ok (each_prefix (fun h => bars_out (fun v m => m <? v) len (map b_high h)) bs).
  Proof.
    intros L B H. apply run_ticks with (inv := fun _ s => s = len); [reflexivity|].
    intros h s b t E ->. subst bs. exists len. split; [|reflexivity].
    unfold highest_bars_step, bars_out. rewrite (read_at_length _ _ _ _ _ H) by exact L. cbn [rbind].
    rewrite map_length. destruct (Nat.leb_spec len (length (h ++ [b]))) as [Q|Q]; cbn [negb]; [|reflexivity].
    assert (Q' : len <= S (length h)) by (rewrite app_length in Q; cbn in Q; lia).
    rewrite (read_highs _ _ _ _ H) by assumption. cbn [rbind].
    unfold highest_bars, find_max_index.
    pose proof (bars_of_window (fun v m => fgtb v m) (lastn len (map b_high (h ++ [b]))) len) as W.
    rewrite W; [reflexivity| |exact L|exact B].
    rewrite length_lastn, map_length. lia.
  Qed.
  Lemma lowest_bars_run len c bs : 1 <= len -> (Z.of_nat len <= 2 ^ 31)%Z -> fresh_over c bs ->
    run lowest_bars_step c len (ticks (length bs)) =
    Ok (each_prefix (fun h => bars_out (fun v m => v <? m) len (map b_low h)) bs).
  Proof.
    intros L B H. apply run_ticks with (inv := fun _ s => s = len); [reflexivity|].
    intros h s b t E ->. subst bs. exists len. split; [|reflexivity].
    unfold lowest_bars_step, bars_out. rewrite (read_at_length _ _ _ _ _ H) by exact L. cbn [rbind].
    rewrite map_length. destruct (Nat.leb_spec len (length (h ++ [b]))) as [Q|Q]; cbn [negb]; [|reflexivity].
    assert (Q' : len <= S (length h)) by (rewrite app_length in Q; cbn in Q; lia).
    rewrite (read_lows _ _ _ _ H) by assumption. cbn [rbind].
    unfold lowest_bars, find_min_index.
    pose proof (bars_of_window (fun v m => v <? m) (lastn len (map b_low (h ++ [b]))) len) as W.
    rewrite W; [reflexivity| |exact L|exact B].
    rewrite length_lastn, map_length. lia.
  Qed.

  (** ** Aroon *)
  Definition aroon_out len (h : bars) : option F * option F :=
    (option_map (aroon_value len) (bars_out (fun v m => m <? v) len (map b_high h)),
     option_map (aroon_value len) (bars_out (fun v m => v <? m) len (map b_low h))).

  Lemma aroon_run len c bs : 1 <= len -> (Z.of_nat len <= 2 ^ 31)%Z -> fresh_over c bs ->
    run_new (aroon_new len) aroon_step c (ticks (length bs)) = Ok (each_prefix (aroon_out len) bs).
  Proof.
    intros L B H. unfold run_new, aroon_new, highest_bars_new, lowest_bars_new, assertb.
    destruct (Nat.leb_spec 1 len); [|lia]. cbn [rbind].
    pose proof (highest_bars_run len c bs L B H) as Hh. pose proof (lowest_bars_run len c bs L B H) as Hl.
    apply run_ticks with (inv := fun _ s => s = mkAroon len len len); [reflexivity|].
    intros h s b t E ->. subst bs. exists (mkAroon len len len). split; [|reflexivity].
    unfold aroon_step; cbn [ar_len ar_hb ar_lb].
    rewrite (read_at_length _ _ _ _ _ H) by exact L. cbn [rbind].
    unfold aroon_out. 
    assert (RL : forall (step : ctx F -> nat -> unit -> res (nat * option Z)),
      (forall c s s' o, step c s tt = Ok (s', o) -> s' = s) -> forall n s, reach step c len (ticks n) s -> s = len).
    { intros step ST n s (os & R). revert R. generalize c as c0. revert s os.
      induction n as [|n IH]; intros s os c0 R; cbn in R; [injection R; auto|].
      destruct (step c0 len tt) as [[s1 o1]|] eqn:E1; [|discriminate]. cbn [rbind] in R.
      apply ST in E1. subst s1.
      destruct (run_st step (ctx_advance c0) len (repeat tt n)) as [[s2 o2]|] eqn:E2; [|discriminate].
      cbn [rbind] in R. injection R as <- _. eapply IH. exact E2. }
    assert (EX : forall (step : ctx F -> nat -> unit -> res (nat * option Z)) (f : bars -> option Z),
      (forall c s s' o, step c s tt = Ok (s', o) -> s' = s) ->
      run step c len (ticks (length (h ++ b :: t))) = Ok (each_prefix f (h ++ b :: t)) ->
      step (ctx_at c (length h)) len tt = Ok (len, f (h ++ [b]))).
    { intros step f ST R.
      assert (RR : exists s, reach step c len (ticks (length h)) s).
      { unfold run in R. rewrite app_length in R. unfold ticks in R. rewrite repeat_app, run_st_app in R.
        unfold reach, ticks. destruct (run_st step c len (repeat tt (length h))) as [[s os]|]; [|discriminate].
        exists s, os. reflexivity. }
      destruct RR as (s & RR). pose proof (RL step ST _ _ RR) as ->.
      destruct (tick_step _ _ _ _ _ _ _ _ _ R eq_refl RR) as (s' & Es & RS).
      rewrite Es. apply ST in Es. subst s'. reflexivity. }
    assert (HB : forall (c : ctx F) s s' o, highest_bars_step c s tt = Ok (s', o) -> s' = s).
    { intros c0 s s' o. unfold highest_bars_step. destruct (at_length c0 s) as [[]|]; cbn [rbind negb]; try discriminate.
      - destruct (ctx_highs c0 s) as [a|]; cbn [rbind]; [|discriminate]. destruct (highest_bars a s); cbn [rbind]; [|discriminate].
        intros E; injection E; auto.
      - intros E; injection E; auto. }
    assert (LB : forall (c : ctx F) s s' o, lowest_bars_step c s tt = Ok (s', o) -> s' = s).
    { intros c0 s s' o. unfold lowest_bars_step. destruct (at_length c0 s) as [[]|]; cbn [rbind negb]; try discriminate.
      - destruct (ctx_lows c0 s) as [a|]; cbn [rbind]; [|discriminate]. destruct (lowest_bars a s); cbn [rbind]; [|discriminate].
        intros E; injection E; auto.
      - intros E; injection E; auto. }
    destruct (Nat.leb_spec len (length (h ++ [b]))) as [Q|Q]; cbn [negb].
    - rewrite (EX _ _ HB Hh), (EX _ _ LB Hl). cbn [rbind]. reflexivity.
    - unfold bars_out. rewrite !map_length. destruct (Nat.leb_spec len (length (h ++ [b]))); [lia|]. reflexivity.
  Qed.
End Bars.
