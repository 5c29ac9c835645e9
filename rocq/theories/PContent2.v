(** * PContent2: the remaining indicators, one call per bar. *)
From Verif Require Export PContent1.

Section Calls.
  Context {F : Type} {NF : Num F} {A S I O : Type}.
  Variable step : ctx F -> S -> I -> res (S * O).
  Lemma call_ep c s0 dom f (g : list A -> I) h b s x :
    behaves step c s0 dom f -> dom (each_prefix g (h ++ [b])) -> reach step c s0 (each_prefix g h) s ->
    x = g (h ++ [b]) ->
    exists s', step (ctx_at c (length h)) s x = Ok (s', f (each_prefix g (h ++ [b]))) /\
               reach step c s0 (each_prefix g (h ++ [b])) s'.
  Proof. intros B D R ->. eapply sub_step; eassumption. Qed.
  Lemma call_map c s0 dom f (g : A -> I) h b s x :
    behaves step c s0 dom f -> dom (map g (h ++ [b])) -> reach step c s0 (map g h) s ->
    x = g b ->
    exists s', step (ctx_at c (length h)) s x = Ok (s', f (map g (h ++ [b]))) /\
               reach step c s0 (map g (h ++ [b])) s'.
  Proof.
    intros B D R ->. rewrite map_app in *. cbn [map] in *.
    destruct (reach_step _ _ _ _ _ _ _ _ B D R) as (s' & E & R').
    rewrite map_length in E. eauto.
  Qed.
End Calls.
Lemma call_id {F} {NF : Num F} {S I O} (step : ctx F -> S -> I -> res (S * O)) c s0 dom f h b s x :
  behaves step c s0 dom f -> dom (h ++ [b]) -> reach step c s0 h s -> x = b ->
  exists s', step (ctx_at c (length h)) s x = Ok (s', f (h ++ [b])) /\ reach step c s0 (h ++ [b]) s'.
Proof. intros B D R ->. eapply reach_step; eassumption. Qed.

(** a source driving a component fed with its values. *)
Lemma feed_tick {F} {NF : Num F} (c : ctx F) src (xs : list (option F)) h x t s :
  feeds c src xs -> xs = h ++ x :: t -> reach ostep c src (ticks (length h)) s ->
  exists s', ostep (ctx_at c (length h)) s tt = Ok (s', x) /\ reach ostep c src (ticks (length (h ++ [x]))) s'.
Proof.
  intros H E R. rewrite <- (map_id xs) in H.
  destruct (src_tick c src (fun v => v) xs h x t s H E R) as (s' & E1 & R1). eauto.
Qed.


Ltac inp := solve [rewrite ?cur_snoc, ?prv_snoc, ?newest_snoc, ?ago1_snoc; reflexivity].
(** One call of an inner component: finds its history and its behaviour. *)
Ltac call :=
  match goal with
  | EZ : _ = ?h ++ ?b :: _, R : reach ?step ?c ?s0 ?hh ?s |- context [?step (ctx_at ?c (length ?h)) ?s ?x] =>
      match goal with
      | B : behaves step c s0 ?dom ?f |- _ =>
          let s' := fresh "s'" in let E := fresh "E" in let R' := fresh "R" in
          let T := fresh "T" in
          match hh with
          | h => pose proof (fun D => call_id step c s0 dom f h b s x B D R) as T
          | map ?g h => pose proof (fun D => call_map step c s0 dom f g h b s x B D R) as T
          | each_prefix ?g h => pose proof (fun D => call_ep step c s0 dom f g h b s x B D R) as T
          end;
          edestruct T as (s' & E & R'); [ | inp | ]; clear T;
          [ try exact I | rewrite E; cbn [rbind]; clear R E ]
      end
  end.
(** One call of the source. *)
Ltac feed :=
  match goal with
  | H : feeds ?c ?src ?xs, EZ : ?xs = ?h ++ ?b :: _, R : reach ostep ?c ?src (ticks (length ?h)) ?s |- _ =>
      let s' := fresh "s'" in let E := fresh "E" in let R' := fresh "R" in
      destruct (feed_tick _ _ _ _ _ _ _ H EZ R) as (s' & E & R'); rewrite E; cbn [rbind]; clear R E
  end.
(** Reads of the current and the previous bar. *)
Ltac reads :=
  match goal with
  | H : fresh_over ?c ?bs, EZ : ?bs = ?h ++ ?b :: ?t |- _ =>
      let H' := fresh "H'" in pose proof H as H'; rewrite EZ in H';
      rewrite ?(read_open _ _ _ _ H'), ?(read_high _ _ _ _ H'), ?(read_low _ _ _ _ H'), ?(read_close _ _ _ _ H'),
              ?(read_volume _ _ _ _ H'), ?(read_p_high _ _ _ _ H'), ?(read_p_low _ _ _ _ H'), ?(read_p_close _ _ _ _ H');
      cbn [rbind]; clear H'
  end.
Ltac done_calls := eexists; split; [reflexivity|]; cbn; repeat split; assumption.

Section Content2.
  Context {F : Type} {NF : Num F}.
  Local Open Scope num_scope.
  Local Notation bars := (list (bar F)).
  Local Notation hist := (list (option F)).

  Lemma behaves_of {S I O} (new : res S) (step : ctx F -> S -> I -> res (S * O)) dom f :
    makes new step dom f -> exists s, new = Ok s /\ forall c, behaves step c s dom (f (c_index c)).
  Proof. auto. Qed.

  (** ** Balance of power *)
  Definition bop_out (h : bars) : option F := bop_value (cur b_close h) (cur b_open h) (cur b_high h) (cur b_low h).
  Lemma bop_run c bs : fresh_over c bs -> run bop_step c tt (ticks (length bs)) = Ok (each_prefix bop_out bs).
  Proof.
    intros H. apply run_ticks with (inv := fun _ s => s = tt); [reflexivity|].
    intros h s b t E ->. subst bs. exists tt. split; [|reflexivity].
    unfold bop_step, bop_out. rewrite (read_close _ _ _ _ H), (read_open _ _ _ _ H), (read_high _ _ _ _ H), (read_low _ _ _ _ H).
    cbn [rbind]. rewrite !cur_snoc. reflexivity.
  Qed.

  (** ** Bollinger bands *)
  Definition bbpb_out mult len (h : hist) : option F := bbpb_value mult (join (newest h)) (sma_out len h) (stdev_out true len h).
  Definition bbw_out mult len (h : hist) : option F := bbw_value mult (join (newest h)) (sma_out len h) (stdev_out true len h).
  Lemma bb_run len mult c src xs : (1 <= len)%nat -> feeds c src xs ->
    run_new (bb_new src len mult) bbpb_step c (ticks (length xs)) = Ok (each_prefix (bbpb_out mult len) xs) /\
    run_new (bb_new src len mult) bbw_step c (ticks (length xs)) = Ok (each_prefix (bbw_out mult len) xs).
  Proof.
    intros L H. destruct (sma_makes len L) as (m & Em & Bm). destruct (stdev_makes true len L) as (d & Ed & Bd).
    specialize (Bm c); specialize (Bd c).
    unfold run_new, bb_new. rewrite Em, Ed. cbn [rbind].
    split.
    all: apply run_ticks with (inv := fun h s => reach ostep c src (ticks (length h)) (bb_src s) /\ bb_mult s = mult /\
       reach sma_step c m h (bb_basis s) /\ reach stdev_step c d h (bb_sd s)); [cbn; repeat split; apply reach_nil|].
    all: intros h s x t E (R0 & M & R1 & R2); destruct s as [ss mu bm bd]; cbn [bb_src bb_mult bb_basis bb_sd] in *; subst mu.
    all: unfold bbpb_step, bbw_step; cbn [bb_src bb_mult bb_basis bb_sd].
    all: feed.
    all: call; call.
    all: unfold bbpb_out, bbw_out; rewrite newest_snoc; done_calls.
  Qed.

  (** ** Chaikin money flow *)
  Definition cmf_flow (b : bar F) : option F := cmf_ad_value (b_close b) (b_high b) (b_low b) (b_volume b).
  Definition cmf_out len (h : bars) : option F := ps_div (sum_out len (map cmf_flow h)) (sum_out len (map b_volume h)).
  Lemma cmf_run len c bs : (1 <= len)%nat -> fresh_over c bs ->
    run_new (cmf_new len) cmf_step c (ticks (length bs)) = Ok (each_prefix (cmf_out len) bs).
  Proof.
    intros L H. destruct (sum_makes len L) as (m & Em & Bm). specialize (Bm c).
    unfold run_new, cmf_new. rewrite Em. cbn [rbind].
    apply run_ticks with (inv := fun h s => reach sum_step c m (map b_volume h) (cmf_vol s) /\ reach sum_step c m (map cmf_flow h) (cmf_ad s));
      [cbn; repeat split; apply reach_nil|].
    intros h [sv sa] b t E (R1 & R2); cbn in R1, R2. unfold cmf_step; cbn [cmf_vol cmf_ad]. reads. call. call. unfold cmf_out. done_calls.
  Qed.

  (** ** Chande Kroll stop *)
  Definition cks_first_out p x (h : bars) : option F * option F :=
    cks_first x (highest_out p 0 (map b_high h)) (lowest_out p 0 (map b_low h)) (atr_out p h).
  Definition cks_out p q x (h : bars) : option F * option F * option F * option F :=
    (fst (cks_first_out p x h), snd (cks_first_out p x h),
     lowest_out q 0 (each_prefix (fun g => snd (cks_first_out p x g)) h),
     highest_out q 0 (each_prefix (fun g => fst (cks_first_out p x g)) h)).
  Lemma cks_run p q x c bs : (1 <= p)%nat -> (1 <= q)%nat -> fresh_over c bs -> Forall has_hl bs ->
    run_new (cks_new p q x) cks_step c (ticks (length bs)) = Ok (each_prefix (cks_out p q x) bs).
  Proof.
    intros L1 L2 H D. destruct (atr_run p c bs L1 H D) as (a & Ea & HA).
    destruct (highest_makes p L1) as (h1 & E1 & B1). destruct (lowest_makes p L1) as (l1 & E2 & B2).
    destruct (highest_makes q L2) as (h2 & E3 & B3). destruct (lowest_makes q L2) as (l2 & E4 & B4).
    specialize (B1 c); specialize (B2 c); specialize (B3 c); specialize (B4 c).
    rewrite (fresh_c_index _ _ H) in *.
    unfold run_new, cks_new. rewrite Ea, E1, E2, E3, E4. cbn [rbind]. clear E1 E2 E3 E4 Ea.
    apply run_ticks with (inv := fun h s => ck_x s = x /\ reach atr_step c a (ticks (length h)) (ck_atr s) /\
       reach highest_step c h1 (map b_high h) (ck_h s) /\ reach lowest_step c l1 (map b_low h) (ck_l s) /\
       reach highest_step c h2 (each_prefix (fun g => fst (cks_first_out p x g)) h) (ck_ss s) /\
       reach lowest_step c l2 (each_prefix (fun g => snd (cks_first_out p x g)) h) (ck_sl s));
      [cbn; repeat split; apply reach_nil|].
    intros h [sx sa sh sl s1 s2] b t E (EX & R0 & R1 & R2 & R3 & R4); cbn in EX, R0, R1, R2, R3, R4. subst sx.
    unfold cks_step; cbn [ck_x ck_atr ck_h ck_l ck_ss ck_sl].
    destruct (tick_step _ _ _ _ _ _ _ _ _ HA E R0) as (a' & Ea & Ra). rewrite Ea; cbn [rbind]. clear R0 Ea.
    reads. call. call. fold (cks_first_out p x (h ++ [b])). rewrite (surjective_pairing (cks_first_out p x (h ++ [b]))).
    call. call. unfold cks_out. done_calls.
  Qed.

  (** ** Chande momentum oscillator *)
  Definition momentum (h : hist) : option F := ps_diff (join (newest h)) (join (ago 1 h)).
  Definition cmo_out len (h : hist) : option F :=
    cmo_value (sum_out len (each_prefix (fun p => cmo_up (momentum p)) h))
              (sum_out len (each_prefix (fun p => cmo_down (momentum p)) h)).
  Lemma momentum_snoc h x : momentum (h ++ [x]) = ps_diff x (join (newest h)).
  Proof. unfold momentum. rewrite newest_snoc, ago1_snoc. reflexivity. Qed.
  Lemma cmo_run len c src xs : (2 <= len)%nat -> feeds c src xs ->
    run_new (cmo_new src len) cmo_step c (ticks (length xs)) = Ok (each_prefix (cmo_out len) xs).
  Proof.
    intros L H. destruct (sum_makes len ltac:(lia)) as (m & Em & Bm). specialize (Bm c).
    unfold run_new, cmo_new, assertb. destruct (Nat.ltb_spec 1 len); [|lia]. cbn [rbind]. rewrite Em. cbn [rbind].
    apply run_ticks with (inv := fun h s => reach ostep c src (ticks (length h)) (cmo_src s) /\ cmo_prev s = join (newest h) /\
       reach sum_step c m (each_prefix (fun p => cmo_up (momentum p)) h) (cmo_s1 s) /\
       reach sum_step c m (each_prefix (fun p => cmo_down (momentum p)) h) (cmo_s2 s));
      [cbn; repeat split; apply reach_nil|].
    intros h [ss sp s1 s2] b t E (R0 & P & R1 & R2); cbn in R0, P, R1, R2. subst sp.
    unfold cmo_step; cbn [cmo_src cmo_prev cmo_s1 cmo_s2]. feed. rewrite <- momentum_snoc. call. call.
    unfold cmo_out. eexists; split; [reflexivity|]. cbn. rewrite newest_snoc. repeat split; assumption.
  Qed.

  (** ** Choppiness index *)
  Definition chop_out len (h : bars) : option F :=
    chop_value (flog10 (fnat len)) (sum_out len (each_prefix (atr_out 1) h))
      (highest_out len 0 (map b_high h)) (lowest_out len 0 (map b_low h)).
  Lemma chop_run len c bs : (1 <= len)%nat -> fresh_over c bs -> Forall has_hl bs ->
    run_new (chop_new len) chop_step c (ticks (length bs)) = Ok (each_prefix (chop_out len) bs).
  Proof.
    intros L H D. destruct (atr_run 1 c bs (le_n 1) H D) as (a & Ea & HA).
    destruct (sum_makes len L) as (m & Em & Bm). 
    destruct (highest_makes len L) as (h1 & E1 & B1). destruct (lowest_makes len L) as (l1 & E2 & B2).
    specialize (Bm c); specialize (B1 c); specialize (B2 c). rewrite (fresh_c_index _ _ H) in *.
    unfold run_new, chop_new. rewrite Ea, Em, E1, E2. cbn [rbind]. clear Ea Em E1 E2.
    apply run_ticks with (inv := fun h s => ch_log s = flog10 (fnat len) /\ reach atr_step c a (ticks (length h)) (ch_atr s) /\
       reach sum_step c m (each_prefix (atr_out 1) h) (ch_sum s) /\
       reach highest_step c h1 (map b_high h) (ch_h s) /\ reach lowest_step c l1 (map b_low h) (ch_l s));
      [cbn; repeat split; apply reach_nil|].
    intros h [sa su sg sh sl] b t E (LG & R0 & R1 & R2 & R3); cbn in LG, R0, R1, R2, R3. subst sg.
    unfold chop_step; cbn [ch_atr ch_sum ch_log ch_h ch_l].
    destruct (tick_step _ _ _ _ _ _ _ _ _ HA E R0) as (a' & Ea & Ra). rewrite Ea; cbn [rbind]. clear R0 Ea.
    call. reads. call. call. unfold chop_out. done_calls.
  Qed.

  (** ** Commodity channel index *)
  Definition cci_out len (h : hist) : option F := cci_value (join (newest h)) (sma_out len h) (dev_out len h).
  Lemma cci_run len c src xs : (1 <= len)%nat -> feeds c src xs ->
    run_new (cci_new src len) cci_step c (ticks (length xs)) = Ok (each_prefix (cci_out len) xs).
  Proof.
    intros L H. destruct (sma_makes len L) as (m & Em & Bm). destruct (dev_makes len L) as (d & Ed & Bd).
    specialize (Bm c); specialize (Bd c).
    unfold run_new, cci_new. rewrite Em, Ed. cbn [rbind].
    apply run_ticks with (inv := fun h s => reach ostep c src (ticks (length h)) (cci_src s) /\
       reach sma_step c m h (cci_sma s) /\ reach dev_step c d h (cci_dev s)); [cbn; repeat split; apply reach_nil|].
    intros h [ss sm sd] x t E (R0 & R1 & R2); cbn in R0, R1, R2.
    unfold cci_step; cbn [cci_src cci_sma cci_dev]. feed. call. call. unfold cci_out. rewrite newest_snoc. done_calls.
  Qed.

  (** ** Connors RSI *)
  Definition ud_state (h : hist) : option F * option F :=
    fold_left (fun '(prev, ud) x => (x, compute_up_down x prev ud)) h (None, None).
  Definition ud_out (h : hist) : option F := snd (ud_state h).
  Lemma ud_state_snoc h x : ud_state (h ++ [x]) = (x, compute_up_down x (fst (ud_state h)) (snd (ud_state h))).
  Proof. unfold ud_state. rewrite fold_left_app. cbn [fold_left]. destruct (fold_left _ h (None, None)). reflexivity. Qed.
  Lemma fst_ud_state h : fst (ud_state h) = join (newest h).
  Proof. destruct h as [|x h] using rev_ind; [reflexivity|]. rewrite ud_state_snoc, newest_snoc. reflexivity. Qed.
  Lemma ud_out_snoc h x : ud_out (h ++ [x]) = compute_up_down x (join (newest h)) (ud_out h).
  Proof. unfold ud_out. rewrite ud_state_snoc, fst_ud_state. reflexivity. Qed.
  Lemma ud_out_defined h x : ud_out (h ++ [x]) <> None.
  Proof.
    rewrite ud_out_snoc. unfold compute_up_down. destruct (feqb_opt _ _); [discriminate|].
    destruct (match x with Some s => _ | None => _ end); [destruct (_ <=? _)|destruct (fgeb _ _)]; discriminate.
  Qed.
  Lemma ud_out_warmed h : warmed (each_prefix ud_out h).
  Proof. apply all_defined_warmed. intros g x _. apply ud_out_defined. Qed.
  Definition crsi_out l1 l2 l3 i0 (h : hist) : option F :=
    crsi_value (rsi_out l1 h) (rsi_out l2 (each_prefix ud_out h)) (prank_out l3 i0 (each_prefix (roc_out 1) h)).
  Lemma warmed_hd (h : hist) x t xs : xs = h ++ x :: t -> warmed xs -> warmed (h ++ [x]).
  Proof. intros -> W. replace (h ++ x :: t) with ((h ++ [x]) ++ t) in W by (rewrite <- app_assoc; reflexivity). eapply warmed_app_l; exact W. Qed.
  Lemma crsi_run l1 l2 l3 c src xs : (2 <= l1)%nat -> (2 <= l2)%nat -> (1 <= l3)%nat -> feeds c src xs -> warmed xs ->
    run_new (crsi_new src l1 l2 l3) crsi_step c (ticks (length xs)) = Ok (each_prefix (crsi_out l1 l2 l3 (c_index c)) xs).
  Proof.
    intros L1 L2 L3 H W. destruct (rsi_makes l1 L1) as (r1 & E1 & B1). destruct (rsi_makes l2 L2) as (r2 & E2 & B2).
    destruct (prank_makes l3 L3) as (p & E3 & B3). destruct (roc_makes 1 (le_n 1)) as (ro & E4 & B4).
    specialize (B1 c); specialize (B2 c); specialize (B3 c); specialize (B4 c).
    unfold run_new, crsi_new. rewrite E1, E2, E3, E4. cbn [rbind]. clear E1 E2 E3 E4.
    apply run_ticks with (inv := fun h s => reach ostep c src (ticks (length h)) (cr_src s) /\
       cr_prev_src s = join (newest h) /\ cr_prev_ud s = ud_out h /\
       reach rsi_step c r1 h (cr_rsi s) /\ reach rsi_step c r2 (each_prefix ud_out h) (cr_ud_rsi s) /\
       reach prank_step c p (each_prefix (roc_out 1) h) (cr_prank s) /\ reach roc_step c ro h (cr_roc s));
      [cbn; repeat split; apply reach_nil|].
    intros h [ss sp su s1 s2 s3 s4] x t E (R0 & P1 & P2 & R1 & R2 & R3 & R4); cbn in R0, P1, P2, R1, R2, R3, R4. subst sp su.
    unfold crsi_step; cbn [cr_src cr_prev_src cr_prev_ud cr_rsi cr_ud_rsi cr_prank cr_roc]. feed.
    call; [eapply warmed_hd; eassumption|]. rewrite <- ud_out_snoc. call; [apply ud_out_warmed|]. call. call.
    unfold crsi_out. eexists; split; [reflexivity|]. cbn. rewrite newest_snoc. repeat split; assumption.
  Qed.

  (** ** Coppock curve *)
  Definition cop_roc long short (h : hist) : option F :=
    match roc_out long h, roc_out short h with Some a, Some b => Some (a + b) | _, _ => None end.
  Definition cop_out long short len i0 (h : hist) : option F := wma_out len i0 (each_prefix (cop_roc long short) h).
  Lemma cop_run long short len c src xs : (1 <= long)%nat -> (1 <= short)%nat -> (1 <= len)%nat -> feeds c src xs ->
    run_new (cop_new src long short len) cop_step c (ticks (length xs)) = Ok (each_prefix (cop_out long short len (c_index c)) xs).
  Proof.
    intros L1 L2 L3 H. destruct (wma_makes len L3) as (w & E1 & B1). destruct (roc_makes long L1) as (r1 & E2 & B2).
    destruct (roc_makes short L2) as (r2 & E3 & B3).
    specialize (B1 c); specialize (B2 c); specialize (B3 c).
    unfold run_new, cop_new. rewrite E1, E2, E3. cbn [rbind]. clear E1 E2 E3.
    apply run_ticks with (inv := fun h s => reach ostep c src (ticks (length h)) (cp_src s) /\
       reach wma_step c w (each_prefix (cop_roc long short) h) (cp_ma s) /\
       reach roc_step c r1 h (cp_long s) /\ reach roc_step c r2 h (cp_short s));
      [cbn; repeat split; apply reach_nil|].
    intros h [ss s1 s2 s3] x t E (R0 & R1 & R2 & R3); cbn in R0, R1, R2, R3.
    unfold cop_step; cbn [cp_src cp_ma cp_long cp_short]. feed. call. call. fold (cop_roc long short (h ++ [x])). call.
    unfold cop_out. done_calls.
  Qed.

  (** ** Donchian channels *)
  Definition don_out len (h : bars) : option F * option F * option F :=
    let u := highest_out len 0 (map b_high h) in let l := lowest_out len 0 (map b_low h) in (u, don_basis u l, l).
  Lemma don_run len c bs : (1 <= len)%nat -> fresh_over c bs ->
    run_new (don_new len) don_step c (ticks (length bs)) = Ok (each_prefix (don_out len) bs).
  Proof.
    intros L H. destruct (highest_makes len L) as (h1 & E1 & B1). destruct (lowest_makes len L) as (l1 & E2 & B2).
    specialize (B1 c); specialize (B2 c). rewrite (fresh_c_index _ _ H) in *.
    unfold run_new, don_new. rewrite E1, E2. cbn [rbind]. clear E1 E2.
    apply run_ticks with (inv := fun h s => reach highest_step c h1 (map b_high h) (dn_h s) /\ reach lowest_step c l1 (map b_low h) (dn_l s));
      [cbn; repeat split; apply reach_nil|].
    intros h [sh sl] b t E (R1 & R2); cbn in R1, R2. unfold don_step; cbn [dn_h dn_l]. reads. call. call. unfold don_out. done_calls.
  Qed.

  (** ** Williams %R: histories of (source value, bar) *)
  Definition wpr_out len (h : list (option F * bar F)) : option F :=
    wpr_value (cur fst h) (highest_out len 0 (map (fun z => b_high (snd z)) h)) (lowest_out len 0 (map (fun z => b_low (snd z)) h)).
  Lemma wpr_run len c src zs : (1 <= len)%nat -> feeds c src (map fst zs) -> fresh_over c (map snd zs) ->
    run_new (wpr_new src len) wpr_step c (ticks (length zs)) = Ok (each_prefix (wpr_out len) zs).
  Proof.
    intros L H HB. destruct (highest_makes len L) as (h1 & E1 & B1). destruct (lowest_makes len L) as (l1 & E2 & B2).
    specialize (B1 c); specialize (B2 c). rewrite (fresh_c_index _ _ HB) in *.
    unfold run_new, wpr_new. rewrite E1, E2. cbn [rbind]. clear E1 E2.
    apply run_ticks with (inv := fun h s => reach ostep c src (ticks (length h)) (wp_src s) /\
       reach highest_step c h1 (map (fun z => b_high (snd z)) h) (wp_h s) /\ reach lowest_step c l1 (map (fun z => b_low (snd z)) h) (wp_l s));
      [cbn; repeat split; apply reach_nil|].
    intros h [ss sh sl] [x b] t E (R0 & R1 & R2); cbn in R0, R1, R2. unfold wpr_step; cbn [wp_src wp_h wp_l].
    destruct (src_tick _ _ _ _ _ _ _ _ H E R0) as (ss' & E0 & R0'). rewrite E0; cbn [rbind fst]. clear R0 E0.
    assert (HB' : fresh_over c (map snd h ++ b :: map snd t)) by (rewrite E, map_app in HB; exact HB).
    pose proof (read_high _ _ _ _ HB') as Q1. pose proof (read_low _ _ _ _ HB') as Q2. rewrite map_length in Q1, Q2. rewrite Q1, Q2. cbn [rbind].
    call. call. unfold wpr_out. rewrite cur_snoc. cbn [fst]. done_calls.
  Qed.
End Content2.
