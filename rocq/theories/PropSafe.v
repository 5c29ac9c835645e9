(** * PropSafe: C69, no panic on gap-free data. *)
From Verif Require Import PContent3 PExact3 Inst PropContent4 PropContent5.

(** A bar with all five values. *)
Definition complete {F} (b : bar F) : Prop :=
  b_open b <> None /\ b_high b <> None /\ b_low b <> None /\ b_close b <> None /\ b_volume b <> None.

Section C69.
  Context {F : Type} {NF : Num F}.

  (** Every indicator of the library with any configuration, except that
      - Aroon's length must not exceed 2^31 (the offset is an [i32]);
      - the Relative Volatility Index' averaging length must be 1 or at least
        the deviation's length minus 2. *)
  Inductive indicator : forall {S O : Type}, res S -> (ctx F -> S -> unit -> res (S * O)) -> Prop :=
  | I_aroon n : (Z.of_nat n <= 2 ^ 31)%Z -> indicator (aroon_new n) aroon_step
  | I_ao k k' m n m' n' : indicator
      (s <- ma_new m n ;; l <- ma_new m' n' ;; Ok (ao_new (src_box k) (src_box k') s l)) ao_step
  | I_bop : indicator (Ok tt) bop_step
  | I_bbpb k n x : indicator (bb_new (src_box k) n x) bbpb_step
  | I_bbw k n x : indicator (bb_new (src_box k) n x) bbw_step
  | I_cmf n : indicator (cmf_new n) cmf_step
  | I_cks p q x : indicator (cks_new p q x) cks_step
  | I_cmo k n : indicator (cmo_new (src_box k) n) cmo_step
  | I_chop n : indicator (chop_new n) chop_step
  | I_cci k n : indicator (cci_new (src_box k) n) cci_step
  | I_crsi k a b d : indicator (crsi_new (src_box k) a b d) crsi_step
  | I_cop k a b d : indicator (cop_new (src_box k) a b d) cop_step
  | I_dmi a b : indicator (dmi_new a b) dmi_step
  | I_don n : indicator (don_new n) don_step
  | I_macd k k' m n m' n' m'' n'' : indicator
      (s <- ma_new m n ;; l <- ma_new m' n' ;; g <- ma_new m'' n'' ;;
       Ok (mkMacd (src_box k) (src_box k') s l g)) macd_step
  | I_po k m n m' n' : indicator
      (s <- ma_new m n ;; l <- ma_new m' n' ;; Ok (mkPo (src_box k) s l)) po_step
  | I_rsii k n : indicator (rsii_new (src_box k) n) rsii_step
  | I_rvgi n : indicator (rvgi_new n) rvgi_step
  | I_rvoli k n m : (m = 1 \/ n <= m + 2) -> indicator (rvoli_new (src_box k) n m) rvoli_step
  | I_srsi k a b d e : indicator (srsi_new (src_box k) a b d e) srsi_step
  | I_uo a b d : indicator (uo_new a b d) uo_step
  | I_vo m n m' n' : indicator
      (s <- ma_new m n ;; l <- ma_new m' n' ;; Ok (mkVo s l)) vo_step
  | I_vortex n : indicator (vortex_new n) vortex_step
  | I_wpr k n : indicator (wpr_new (src_box k) n) wpr_step.

  (** ** Sources over complete bars *)
  Lemma complete_src_ok k (b : bar F) : complete b -> src_ok k b.
  Proof.
    intros (H1 & H2 & H3 & H4 & H5). destruct b as [o h l c v]; cbn in *.
    destruct o, h, l, c, v; try congruence; destruct k; cbn; discriminate || exact I.
  Qed.
  Lemma complete_src k (b : bar F) : complete b -> src_of k b <> None.
  Proof.
    intros (H1 & H2 & H3 & H4 & H5). destruct b as [o h l c v]; cbn in *.
    destruct o, h, l, c, v; try congruence; destruct k; cbn; discriminate.
  Qed.
  Lemma complete_values {A B} (f : A -> option B) bs : Forall (fun b => f b <> None) bs ->
    exists vs, map f bs = map Some vs /\ length vs = length bs.
  Proof.
    induction 1 as [|b t Hb _ (vs & E & L)]; [exists []; split; reflexivity|].
    destruct (f b) as [v|] eqn:Ef; [|congruence]. exists (v :: vs). cbn. rewrite Ef, E, L. split; reflexivity.
  Qed.
  Lemma source_values k c bs : fresh_over c bs -> Forall complete bs ->
    exists vs : list F, feeds c (src_box k) (map Some vs) /\ map (src_of k) bs = map Some vs /\ length vs = length bs.
  Proof.
    intros H HC. destruct (complete_values (src_of k) bs) as (vs & E & L).
    { eapply Forall_impl; [|exact HC]. intros b. apply complete_src. }
    exists vs. split; [|split; assumption]. rewrite <- E. apply src_feeds; [exact H|].
    eapply Forall_impl; [|exact HC]. intros b. apply complete_src_ok.
  Qed.
  Lemma complete_hlc bs : Forall (@complete F) bs -> Forall has_hlc bs.
  Proof. apply Forall_impl. intros b (_ & H2 & H3 & H4 & _). repeat split; assumption. Qed.
  Lemma complete_hl bs : Forall (@complete F) bs -> Forall has_hl bs.
  Proof. intros H. apply Forall_hlc_hl, complete_hlc, H. Qed.

  (** ** Averages of complete series are present from some bar on *)
  Definition ma_wait (k : ma_kind) (len : nat) : nat := match k with SWMA => 4 | _ => len end.
  Lemma ma_defined k len (h : list F) : 1 <= len ->
    (ma_out k len 0 (map Some h) <> None <-> ma_wait k len <= length h).
  Proof.
    intros L. destruct k; cbn [ma_out ma_wait].
    - unfold sma_out. destruct (Nat.eqb_spec len 1) as [->|N].
      + rewrite newest_map. unfold newest. destruct h as [|a t]; cbn [length option_map join].
        * cbn. split; [intros X; destruct (X eq_refl) | lia].
        * split; [cbn; lia|]. intros _. destruct (nth_error (a :: t) (S (length t) - 1)) eqn:E; [discriminate|].
          apply nth_error_None in E. cbn in E. lia.
      + unfold window. rewrite map_length. destruct (Nat.leb_spec len (length h)) as [G|G].
        * rewrite lastn_map, all_some_map_Some. split; [auto | discriminate].
        * split; [intros X; destruct (X eq_refl) | lia].
    - unfold ema_out, ema_val. replace (present (map Some h)) with h by (symmetry; apply (present_warm 0)).
      destruct (Nat.eqb_spec len 1) as [->|N].
      + unfold newest. destruct h as [|a t]; cbn [length]; [cbn; split; [intros X; destruct (X eq_refl) | lia]|].
        split; [lia|]. intros _ E. apply nth_error_None in E. cbn in E. lia.
      + destruct (Nat.ltb_spec (length h) len) as [G|G]; [split; [intros X; destruct (X eq_refl) | lia] | split; [intros _; exact G | discriminate]].
    - unfold ema_out, ema_val. replace (present (map Some h)) with h by (symmetry; apply (present_warm 0)).
      destruct (Nat.eqb_spec len 1) as [->|N].
      + unfold newest. destruct h as [|a t]; cbn [length]; [cbn; split; [intros X; destruct (X eq_refl) | lia]|].
        split; [lia|]. intros _ E. apply nth_error_None in E. cbn in E. lia.
      + destruct (Nat.ltb_spec (length h) len) as [G|G]; [split; [intros X; destruct (X eq_refl) | lia] | split; [intros _; exact G | discriminate]].
    - unfold swma_out. rewrite map_length. change (0 + length h) with (length h). destruct (Nat.leb_spec 4 (length h)) as [G|G].
      + rewrite lastn_map, all_some_map_Some. split; [auto | discriminate].
      + split; [intros X; destruct (X eq_refl) | lia].
  Qed.
  Lemma ma_new_len k len (m : any_ma) : ma_new k len = Ok m -> 1 <= len \/ k = SWMA.
  Proof.
    destruct k; cbn [ma_new]; try (right; reflexivity); intros E; left;
      unfold sma_new, ema_new, rma_new, ema_with_alpha, assertb in E; destruct (Nat.leb_spec 1 len); try lia; discriminate.
  Qed.
  Lemma ma_runs k len (c : ctx F) (m : any_ma) xs : ma_new k len = Ok m -> c_index c = 0 -> warmed xs ->
    exists n, 1 <= n /\ run ostep c m xs = Ok (each_prefix (ma_out k n 0) xs).
  Proof.
    intros E Z W. destruct (ma_new_len k len m E) as [L | ->].
    - exists len. split; [exact L|]. pose proof (makes_run _ _ _ _ c xs (ma_makes k len L) W) as R.
      unfold run_new in R. rewrite E, Z in R. exact R.
    - exists 1. split; [lia|].
      assert (E' : ma_new SWMA 1 = Ok m) by exact E.
      pose proof (makes_run _ _ _ _ c xs (ma_makes SWMA 1 (le_n 1)) W) as R.
      unfold run_new in R. rewrite E', Z in R. exact R.
  Qed.
  Lemma line_warmed k n k' n' (vs ws : list F) : 1 <= n -> 1 <= n' -> length vs = length ws ->
    warmed (zip minus (each_prefix (ma_out k n 0) (map Some vs)) (each_prefix (ma_out k' n' 0) (map Some ws))).
  Proof.
    intros L L' E.
    assert (X : zip minus (each_prefix (ma_out k n 0) (map Some vs)) (each_prefix (ma_out k' n' 0) (map Some ws)) =
      each_prefix (fun p => minus (ma_out k n 0 (map Some (map fst p))) (ma_out k' n' 0 (map Some (map snd p)))) (combine vs ws)).
    { rewrite !each_prefix_of_map.
      replace vs with (map fst (combine vs ws)) at 1.
      2:{ clear L L'. revert ws E. induction vs; destruct ws; cbn; intros; try discriminate; [reflexivity|]. f_equal. apply IHvs. lia. }
      replace ws with (map snd (combine vs ws)) at 2.
      2:{ clear L L'. revert vs E. induction ws; destruct vs; cbn; intros; try discriminate; [reflexivity|]. f_equal. apply IHws. lia. }
      rewrite !each_prefix_of_map. apply zip_each. }
    rewrite X. apply warmed_each_prefix. intros h x _ _ Hd.
    assert (D : forall a b : option F, minus a b <> None <-> a <> None /\ b <> None).
    { intros [a|] [b|]; cbn; split; intros Y; (split || idtac); try discriminate; try (destruct Y; congruence); exfalso; apply Y; reflexivity. }
    apply D in Hd. apply D. rewrite !ma_defined in *; [|assumption..]. rewrite !map_app, !app_length. lia.
  Qed.

  Lemma new_ge (n m : nat) (A : Type) (k : unit -> res A) a : (_ <- assertb (m <=? n) ;; k tt) = Ok a -> m <= n.
  Proof. unfold assertb. destruct (Nat.leb_spec m n); [lia | discriminate]. Qed.

  Ltac bounds E :=
    repeat progress unfold aroon_new, highest_bars_new, lowest_bars_new, bb_new, cmf_new, cks_new, cmo_new, chop_new, cci_new, crsi_new, cop_new,
      dmi_new, don_new, rsii_new, rvgi_new, rvoli_new, srsi_new, uo_new, vortex_new, wpr_new,
      atr_new, rma_new, sma_new, sum_new, stdev_new, dev_new, ema_new, ema_with_alpha, highest_new, lowest_new, rsi_new, prank_new, roc_new,
      wma_new, stoch_new, wv_new, assertb in E; cbn [rbind] in E;
    repeat match type of E with
      | context [?m <=? ?n] => destruct (Nat.leb_spec m n); cbn [rbind] in E; [|first [discriminate E | lia]]
      | context [?m <? ?n] => destruct (Nat.ltb_spec m n); cbn [rbind] in E; [|first [discriminate E | lia]]
      end.
  Ltac fin := eexists; reflexivity.

  Theorem C69_no_panic_partial {S O} (new : res S) (step : ctx F -> S -> unit -> res (S * O)) s c bs :
    indicator new step -> new = Ok s -> fresh_over c bs -> Forall complete bs ->
    exists os, run_new new step c (ticks (length bs)) = Ok os /\ length os = length bs.
  Proof.
    intros K E H HC.
    assert (X : exists os, run_new new step c (ticks (length bs)) = Ok os).
    2:{ destruct X as [os X]. exists os. split; [exact X|]. rewrite E in X.
        apply run_length in X. rewrite X. apply repeat_length. }
    pose proof (complete_hlc bs HC) as Hlc. pose proof (complete_hl bs HC) as Hl.
    pose proof (fresh_c_index c bs H) as Z.
    destruct K as [n Hn|k k' m n m' n'| |k n x|k n x|n|p q' x|k n|n|k n|k a b d|k a b d|a b|n|k k' m n m' n' m'' n''|k m n m' n'|k n|n|k n m Hnm|k a b d e|a b d|m n m' n'|n|k n].
    - assert (L : 1 <= n) by (clear -E; bounds E; assumption). rewrite (aroon_run n c bs L Hn H). fin.
    - destruct (source_values k c bs H HC) as (vs & FE & _ & LE). destruct (source_values k' c bs H HC) as (ws & FE' & _ & LE').
      unfold run_new. destruct (ma_new m n) as [a|] eqn:A; [|discriminate]. destruct (ma_new m' n') as [b|] eqn:B; [|discriminate].
      cbn [rbind]. rewrite C58_awesome. unfold feeds in FE, FE'. rewrite map_length in FE, FE'. rewrite LE in FE. rewrite LE' in FE'. rewrite FE, FE'. cbn [rbind].
      destruct (ma_runs m n c a _ A Z (warmed_map_Some vs)) as (? & ? & ->). destruct (ma_runs m' n' c b _ B Z (warmed_map_Some ws)) as (? & ? & ->). cbn [rbind]. fin.
    - unfold run_new. cbn [rbind]. rewrite (bop_run c bs H). fin.
    - destruct (source_values k c bs H HC) as (vs & FE & _ & LE).
      assert (L : 1 <= n) by (clear -E; bounds E; assumption).
      destruct (bb_run n x c _ _ L FE) as [R _]. rewrite map_length, LE in R. rewrite R. fin.
    - destruct (source_values k c bs H HC) as (vs & FE & _ & LE).
      assert (L : 1 <= n) by (clear -E; bounds E; assumption).
      destruct (bb_run n x c _ _ L FE) as [_ R]. rewrite map_length, LE in R. rewrite R. fin.
    - assert (L : 1 <= n) by (clear -E; bounds E; assumption). rewrite (cmf_run n c bs L H). fin.
    - assert (L : 1 <= p /\ 1 <= q') by (clear -E; bounds E; split; assumption). rewrite (cks_run p q' x c bs (proj1 L) (proj2 L) H Hl). fin.
    - destruct (source_values k c bs H HC) as (vs & FE & _ & LE).
      assert (L : 2 <= n) by (clear -E; bounds E; lia).
      pose proof (cmo_run n c _ _ L FE) as R. rewrite map_length, LE in R. rewrite R. fin.
    - assert (L : 1 <= n) by (clear -E; bounds E; assumption). rewrite (chop_run n c bs L H Hl). fin.
    - destruct (source_values k c bs H HC) as (vs & FE & _ & LE).
      assert (L : 1 <= n) by (clear -E; bounds E; assumption).
      pose proof (cci_run n c _ _ L FE) as R. rewrite map_length, LE in R. rewrite R. fin.
    - destruct (source_values k c bs H HC) as (vs & FE & _ & LE).
      assert (L : 2 <= a /\ 2 <= b /\ 1 <= d) by (clear -E; bounds E; lia).
      pose proof (crsi_run a b d c _ _ (proj1 L) (proj1 (proj2 L)) (proj2 (proj2 L)) FE (warmed_map_Some vs)) as R. rewrite map_length, LE in R. rewrite R. fin.
    - destruct (source_values k c bs H HC) as (vs & FE & _ & LE).
      assert (L : 1 <= a /\ 1 <= b /\ 1 <= d) by (clear -E; bounds E; lia).
      pose proof (cop_run a b d c _ _ (proj1 L) (proj1 (proj2 L)) (proj2 (proj2 L)) FE) as R. rewrite map_length, LE in R. rewrite R. fin.
    - assert (L : 1 <= a /\ 1 <= b) by (clear -E; bounds E; lia). rewrite (dmi_run a b c bs (proj1 L) (proj2 L) H Hlc). fin.
    - assert (L : 1 <= n) by (clear -E; bounds E; assumption). rewrite (don_run n c bs L H). fin.
    - destruct (source_values k c bs H HC) as (vs & FE & _ & LE). destruct (source_values k' c bs H HC) as (ws & FE' & _ & LE').
      unfold run_new. destruct (ma_new m n) as [a|] eqn:A; [|discriminate]. destruct (ma_new m' n') as [b|] eqn:B; [|discriminate]. cbn [rbind] in E |- *.
      destruct (ma_new m'' n'') as [g|] eqn:G; [|discriminate].
      cbn [rbind]. rewrite C58_macd. unfold feeds in FE, FE'. rewrite map_length in FE, FE'. rewrite LE in FE. rewrite LE' in FE'. rewrite FE, FE'. cbn [rbind].
      destruct (ma_runs m n c a _ A Z (warmed_map_Some vs)) as (n1 & L1 & ->). destruct (ma_runs m' n' c b _ B Z (warmed_map_Some ws)) as (n2 & L2 & ->). cbn [rbind].
      destruct (ma_runs m'' n'' c g _ G Z (line_warmed m n1 m' n2 vs ws L1 L2 ltac:(congruence))) as (n3 & L3 & ->). cbn [rbind]. fin.
    - destruct (source_values k c bs H HC) as (vs & FE & _ & LE).
      unfold run_new. destruct (ma_new m n) as [a|] eqn:A; [|discriminate]. destruct (ma_new m' n') as [b|] eqn:B; [|discriminate].
      cbn [rbind]. rewrite C58_price. unfold feeds in FE. rewrite map_length in FE. rewrite LE in FE. rewrite FE. cbn [rbind].
      destruct (ma_runs m n c a _ A Z (warmed_map_Some vs)) as (? & ? & ->). destruct (ma_runs m' n' c b _ B Z (warmed_map_Some vs)) as (? & ? & ->). cbn [rbind]. fin.
    - destruct (source_values k c bs H HC) as (vs & FE & _ & LE).
      assert (L : 2 <= n) by (clear -E; bounds E; lia).
      pose proof (rsii_run n c _ _ L FE (warmed_map_Some vs)) as R. rewrite map_length, LE in R. rewrite R. fin.
    - assert (L : 1 <= n) by (clear -E; unfold rvgi_new in E; destruct (@swma_new F); [|discriminate]; cbn [rbind] in E; bounds E; assumption).
      rewrite (rvgi_run n c bs L H). fin.
    - destruct (source_values k c bs H HC) as (vs & FE & _ & LE).
      assert (L : 1 <= n /\ 1 <= m) by (clear -E; bounds E; lia).
      destruct (C64_no_panic n m c _ vs (proj1 L) (proj2 L) Hnm FE) as (os & R & _). rewrite LE in R. rewrite R. fin.
    - destruct (source_values k c bs H HC) as (vs & FE & _ & LE).
      assert (L : 2 <= a /\ 1 <= b /\ 1 <= d /\ 1 <= e) by (clear -E; bounds E; lia).
      destruct L as (L1 & L2 & L3 & L4).
      pose proof (srsi_run a b d e c _ _ L1 L2 L3 L4 FE (warmed_map_Some vs)) as R. rewrite map_length, LE in R. rewrite R. fin.
    - assert (L : 1 <= a /\ 1 <= b /\ 1 <= d) by (clear -E; bounds E; lia). destruct L as (L1 & L2 & L3).
      rewrite (uo_run a b d c bs L1 L2 L3 H). fin.
    - destruct (complete_values b_volume bs) as (vs & EV & LE). { eapply Forall_impl; [|exact HC]. intros b Hb. apply Hb. }
      unfold run_new. destruct (ma_new m n) as [a|] eqn:A; [|discriminate]. destruct (ma_new m' n') as [b|] eqn:B; [|discriminate].
      cbn [rbind]. rewrite (C58_volume c bs a b H), EV.
      destruct (ma_runs m n c a _ A Z (warmed_map_Some vs)) as (? & ? & ->). destruct (ma_runs m' n' c b _ B Z (warmed_map_Some vs)) as (? & ? & ->). cbn [rbind]. fin.
    - assert (L : 1 <= n) by (clear -E; bounds E; assumption). rewrite (vortex_run n c bs L H Hl). fin.
    - destruct (source_values k c bs H HC) as (vs & FE & EV & LE).
      assert (L : 1 <= n) by (clear -E; bounds E; assumption).
      pose proof (wpr_run n c (src_box k) (map (fun b => (src_of k b, b)) bs) L) as R.
      rewrite !map_map in R. cbn [fst snd] in R. rewrite map_id, map_length in R.
      change (map (fun b => src_of k b) bs) with (map (src_of k) bs) in R. rewrite EV in R. rewrite (R FE H). fin.
  Qed.
End C69.

(** The side condition on the Relative Volatility Index cannot be dropped: for
    every other pair of lengths its constructor succeeds and some complete
    series makes it panic. *)
Definition rise_bars (ma : nat) : list (bar f64) :=
  map (fun z => qbar (z, z, z, z, 1)%Z) (repeat 5%Z (S ma) ++ [6%Z]).
Theorem C69_refuted len ma : 2 <= ma -> ma + 3 <= len ->
  exists s c, rvoli_new (F := f64) (src_box SClose) len ma = Ok s /\ ctx_over (rise_bars ma) = Ok c /\
    fresh_over c (rise_bars ma) /\ Forall complete (rise_bars ma) /\
    run rvoli_step c s (ticks (length (rise_bars ma))) = Panic.
Proof.
  intros L1 L2.
  destruct (ctx_over_fresh (rise_bars ma)) as (c & Ec & Hc & _); [discriminate|].
  destruct (rvoli_new (src_box SClose) len ma) as [s|] eqn:E.
  - exists s, c. split; [reflexivity|]. split; [exact Ec|]. split; [exact Hc|]. split.
    + apply Forall_forall. intros b Hb. unfold rise_bars in Hb. apply in_map_iff in Hb. destruct Hb as (z & <- & _). repeat split; discriminate.
    + assert (Len : length (rise_bars ma) = ma + 2).
      { unfold rise_bars. rewrite map_length, app_length, repeat_length. cbn. lia. }
      rewrite Len. change (run rvoli_step c s (ticks (ma + 2))) with (rbind (Ok s) (fun s => run rvoli_step c s (ticks (ma + 2)))).
      rewrite <- E. apply C64_panics; [exact L1 | exact L2 |].
      assert (EV : map Some (repeat (q 5) (S ma) ++ [q 6]) = map (src_of SClose) (rise_bars ma)).
      { unfold rise_bars. rewrite map_map, !map_app. cbn [map src_of qbar b_close]. f_equal.
        generalize (S ma). intros n. induction n; [reflexivity|]. cbn [repeat map]. f_equal. exact IHn. }
      rewrite EV. apply src_feeds; [exact Hc|]. apply Forall_forall. intros; exact I.
  - exfalso. revert E. unfold rvoli_new, stdev_new, ema_new, ema_with_alpha, sma_new, wv_new, assertb.
    destruct (Nat.leb_spec 1 len); [|lia]. destruct (Nat.leb_spec 1 ma); [|lia]. cbn [rbind]. discriminate.
Qed.

(** Complete bars and a non-trivial configuration. *)
Example C69_ex : Forall complete bars6 /\ indicator (F := f64) macd_default macd_step /\
  exists s, macd_default (F := f64) = Ok s.
Proof.
  split; [|split].
  - repeat constructor; discriminate.
  - exact (I_macd SClose SClose EMA 12 EMA 26 EMA 9).
  - eexists. unfold macd_default. reflexivity.
Qed.
Example C69_refuted_ex : 2 <= 3 /\ 3 + 3 <= 6 /\ length (rise_bars 3) = 5.
Proof. repeat split; lia. Qed.
