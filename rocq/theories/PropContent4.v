(** * PropContent4: C58-C62. *)
From Verif Require Import PTa4 PExact3 Inst PropTa3 PropContent2 PropContent3.

(** ** C58 *)
Section C58.
  Context {F : Type} {NF : Num F}.
  Local Open Scope num_scope.
  Definition minus (a b : option F) : option F := match a, b with Some a, Some b => Some (a - b) | _, _ => None end.

  (** Whatever the two sources and the three averages are (any implementation
      of the component interface), including when one of them panics. *)
  Theorem C58_macd n : forall (c : ctx F) ssrc lsrc short long signal,
    run macd_step c (mkMacd ssrc lsrc short long signal) (ticks n) =
    (ss <- run ostep c ssrc (ticks n) ;;
     ls <- run ostep c lsrc (ticks n) ;;
     sm <- run ostep c short ss ;;
     lm <- run ostep c long ls ;;
     sg <- run ostep c signal (zip minus sm lm) ;;
     Ok (combine (zip minus sm lm) sg)).
  Proof.
    induction n as [|n IH]; intros c ssrc lsrc short long signal; [reflexivity|].
    cbn [ticks repeat]. rewrite !run_cons. fold (ticks n). unfold macd_step at 1. cbn [mc_ssrc mc_lsrc mc_sma mc_lma mc_sig].
    destruct (ostep c ssrc tt) as [[s1 x1]|] eqn:E1; cbn [rbind]; [|reflexivity].
    destruct (ostep c lsrc tt) as [[s2 x2]|] eqn:E2; cbn [rbind]; [|destruct (run ostep (ctx_advance c) s1 (ticks n)); reflexivity].
    destruct (ostep c short x1) as [[s3 x3]|] eqn:E3; cbn [rbind].
    2:{ destruct (run ostep (ctx_advance c) s1 (ticks n)); cbn [rbind]; [|reflexivity]. destruct (run ostep (ctx_advance c) s2 (ticks n)); cbn [rbind]; [|reflexivity].
        rewrite run_cons, E3. reflexivity. }
    destruct (ostep c long x2) as [[s4 x4]|] eqn:E4; cbn [rbind].
    2:{ destruct (run ostep (ctx_advance c) s1 (ticks n)) as [l1|]; cbn [rbind]; [|reflexivity]. destruct (run ostep (ctx_advance c) s2 (ticks n)) as [l2|]; cbn [rbind]; [|reflexivity].
        rewrite !run_cons, E3, E4. cbn [rbind]. destruct (run ostep (ctx_advance c) s3 l1); reflexivity. }
    fold (minus x3 x4). destruct (ostep c signal (minus x3 x4)) as [[s5 x5]|] eqn:E5; cbn [rbind].
    2:{ destruct (run ostep (ctx_advance c) s1 (ticks n)) as [l1|]; cbn [rbind]; [|reflexivity]. destruct (run ostep (ctx_advance c) s2 (ticks n)) as [l2|]; cbn [rbind]; [|reflexivity].
        rewrite !run_cons, E3, E4. cbn [rbind]. destruct (run ostep (ctx_advance c) s3 l1); cbn [rbind]; [|reflexivity]. destruct (run ostep (ctx_advance c) s4 l2); cbn [rbind]; [|reflexivity].
        unfold zip at 1. cbn [combine map fst snd]. rewrite run_cons, E5. reflexivity. }
    rewrite IH.
    destruct (run ostep (ctx_advance c) s1 (ticks n)) as [l1|]; cbn [rbind]; [|reflexivity]. destruct (run ostep (ctx_advance c) s2 (ticks n)) as [l2|]; cbn [rbind]; [|reflexivity].
    rewrite !run_cons, E3, E4. cbn [rbind]. destruct (run ostep (ctx_advance c) s3 l1) as [m1|]; cbn [rbind]; [|reflexivity]. destruct (run ostep (ctx_advance c) s4 l2) as [m2|]; cbn [rbind]; [|reflexivity].
    change (zip minus (x3 :: m1) (x4 :: m2)) with (minus x3 x4 :: zip minus m1 m2). rewrite run_cons, E5. cbn [rbind].
    destruct (run ostep (ctx_advance c) s5 (zip minus m1 m2)); reflexivity.
  Qed.

  (** The output is the change of short average minus long average. *)
  Lemma ao_pipe n : forall (c : ctx F) ssrc lsrc short long prev,
    run ao_step c (mkAo ssrc lsrc short long prev) (ticks n) =
    (ss <- run ostep c ssrc (ticks n) ;;
     ls <- run ostep c lsrc (ticks n) ;;
     sm <- run ostep c short ss ;;
     lm <- run ostep c long ls ;;
     Ok (zip minus (zip minus sm lm) (prev :: zip minus sm lm))).
  Proof.
    induction n as [|n IH]; intros c ssrc lsrc short long prev; [reflexivity|].
    cbn [ticks repeat]. rewrite !run_cons. fold (ticks n). unfold ao_step at 1. cbn [ao_ssrc ao_lsrc ao_sma ao_lma ao_prev].
    destruct (ostep c ssrc tt) as [[s1 x1]|] eqn:E1; cbn [rbind]; [|reflexivity].
    destruct (ostep c lsrc tt) as [[s2 x2]|] eqn:E2; cbn [rbind]; [|destruct (run ostep (ctx_advance c) s1 (ticks n)); reflexivity].
    destruct (ostep c short x1) as [[s3 x3]|] eqn:E3; cbn [rbind].
    2:{ destruct (run ostep (ctx_advance c) s1 (ticks n)); cbn [rbind]; [|reflexivity]. destruct (run ostep (ctx_advance c) s2 (ticks n)); cbn [rbind]; [|reflexivity].
        rewrite run_cons, E3. reflexivity. }
    destruct (ostep c long x2) as [[s4 x4]|] eqn:E4; cbn [rbind].
    2:{ destruct (run ostep (ctx_advance c) s1 (ticks n)) as [l1|]; cbn [rbind]; [|reflexivity]. destruct (run ostep (ctx_advance c) s2 (ticks n)) as [l2|]; cbn [rbind]; [|reflexivity].
        rewrite !run_cons, E3, E4. cbn [rbind]. destruct (run ostep (ctx_advance c) s3 l1); reflexivity. }
    rewrite IH.
    destruct (run ostep (ctx_advance c) s1 (ticks n)) as [l1|]; cbn [rbind]; [|reflexivity]. destruct (run ostep (ctx_advance c) s2 (ticks n)) as [l2|]; cbn [rbind]; [|reflexivity].
    rewrite !run_cons, E3, E4. cbn [rbind]. destruct (run ostep (ctx_advance c) s3 l1) as [m1|]; cbn [rbind]; [|reflexivity]. destruct (run ostep (ctx_advance c) s4 l2) as [m2|]; cbn [rbind]; [|reflexivity].
    reflexivity.
  Qed.
  Theorem C58_awesome n (c : ctx F) ssrc lsrc short long :
    run ao_step c (ao_new ssrc lsrc short long) (ticks n) =
    (ss <- run ostep c ssrc (ticks n) ;;
     ls <- run ostep c lsrc (ticks n) ;;
     sm <- run ostep c short ss ;;
     lm <- run ostep c long ls ;;
     let line := zip minus sm lm in Ok (zip minus line (None :: line))).
  Proof. apply ao_pipe. Qed.

  Lemma two_pipe n : forall (c : ctx F) src (short long : any_ma) (f : option F -> option F -> option F) (step : ctx F -> any_src * any_ma * any_ma -> unit -> res (any_src * any_ma * any_ma * option F)),
    (forall c s, step c s tt = ('(a, x) <- ostep c (fst (fst s)) tt ;; '(b, y) <- ostep c (snd (fst s)) x ;; '(d, z) <- ostep c (snd s) x ;; Ok (a, b, d, f y z))) ->
    run step c (src, short, long) (ticks n) =
    (xs <- run ostep c src (ticks n) ;; sm <- run ostep c short xs ;; lm <- run ostep c long xs ;; Ok (zip f sm lm)).
  Proof.
    induction n as [|n IH]; intros c src short long f step H; [reflexivity|].
    cbn [ticks repeat]. rewrite !run_cons. fold (ticks n). rewrite H. cbn [fst snd].
    destruct (ostep c src tt) as [[s1 x1]|] eqn:E1; cbn [rbind]; [|reflexivity].
    destruct (ostep c short x1) as [[s3 x3]|] eqn:E3; cbn [rbind].
    2:{ destruct (run ostep (ctx_advance c) s1 (ticks n)); cbn [rbind]; [|reflexivity]. rewrite run_cons, E3. reflexivity. }
    destruct (ostep c long x1) as [[s4 x4]|] eqn:E4; cbn [rbind].
    2:{ destruct (run ostep (ctx_advance c) s1 (ticks n)) as [l1|]; cbn [rbind]; [|reflexivity].
        rewrite !run_cons, E3, E4. cbn [rbind]. destruct (run ostep (ctx_advance c) s3 l1); reflexivity. }
    rewrite (IH _ _ _ _ f step H).
    destruct (run ostep (ctx_advance c) s1 (ticks n)) as [l1|]; cbn [rbind]; [|reflexivity].
    rewrite !run_cons, E3, E4. cbn [rbind]. destruct (run ostep (ctx_advance c) s3 l1) as [m1|]; cbn [rbind]; [|reflexivity]. destruct (run ostep (ctx_advance c) s4 l1) as [m2|]; reflexivity.
  Qed.
  (** Runs do not depend on how the state is packed. *)
  Lemma run_repack {S T I O} (step : ctx F -> S -> I -> res (S * O)) (step' : ctx F -> T -> I -> res (T * O)) (p : T -> S) xs : forall c t,
    (forall c t x, step c (p t) x = ('(t', o) <- step' c t x ;; Ok (p t', o))) ->
    run step c (p t) xs = run step' c t xs.
  Proof.
    induction xs as [|x xs IH]; intros c t H; [reflexivity|]. rewrite !run_cons, H. destruct (step' c t x) as [[t' o]|]; cbn [rbind]; [|reflexivity].
    rewrite (IH _ _ H). reflexivity.
  Qed.
  Definition percent_difference (s l : option F) : option F :=
    match s, l with Some s, Some l => Some ((s - l) / l * fZ 100) | _, _ => None end.
  Theorem C58_price n (c : ctx F) src short long :
    run po_step c (mkPo src short long) (ticks n) =
    (xs <- run ostep c src (ticks n) ;;
     sm <- run ostep c short xs ;;
     lm <- run ostep c long xs ;; Ok (zip percent_difference sm lm)).
  Proof.
    pose (step := fun (c : ctx F) (s : any_src * any_ma * any_ma) (_ : unit) =>
      '(a, x) <- ostep c (fst (fst s)) tt ;; '(b, y) <- ostep c (snd (fst s)) x ;; '(d, z) <- ostep c (snd s) x ;; Ok (a, b, d, percent_difference y z)).
    rewrite <- (two_pipe n c src short long percent_difference step) by (intros; reflexivity).
    apply (run_repack po_step step (fun t => mkPo (fst (fst t)) (snd (fst t)) (snd t)) (ticks n) c (src, short, long)).
    intros c' t x. unfold po_step, step. cbn [po_src po_sma po_lma]. destruct (ostep c' (fst (fst t)) tt) as [[? v]|]; cbn [rbind]; [|reflexivity].
    destruct (ostep c' (snd (fst t)) v) as [[? y]|]; cbn [rbind]; [|reflexivity]. destruct (ostep c' (snd t) v) as [[? z]|]; cbn [rbind]; reflexivity.
  Qed.
  (** As the price oscillator, of the volume; missing when the long average is
      zero. *)
  Definition percent_difference_nz (s l : option F) : option F :=
    match s, l with Some s, Some l => if l ==? fZ 0 then None else Some ((s - l) / l * fZ 100) | _, _ => None end.
  Theorem C58_volume (c : ctx F) bs short long : fresh_over c bs ->
    run vo_step c (mkVo short long) (ticks (length bs)) =
    (sm <- run ostep c short (map b_volume bs) ;;
     lm <- run ostep c long (map b_volume bs) ;; Ok (zip percent_difference_nz sm lm)).
  Proof.
    intros H. assert (FE := src_feeds SVolume c bs H (proj2 (Forall_forall _ _) (fun _ _ => I))).
    unfold feeds in FE. rewrite map_length in FE. change (map (src_of SVolume) bs) with (map b_volume bs) in FE.
    pose (step := fun (c : ctx F) (s : any_src * any_ma * any_ma) (_ : unit) =>
      '(a, x) <- ostep c (fst (fst s)) tt ;; '(b, y) <- ostep c (snd (fst s)) x ;; '(d, z) <- ostep c (snd s) x ;; Ok (a, b, d, percent_difference_nz y z)).
    transitivity (run step c (src_box SVolume, short, long) (ticks (length bs))).
    - pose (step2 := fun (c : ctx F) (t : any_ma * any_ma) (_ : unit) =>
        '(a, x) <- ostep c (src_box SVolume) tt ;; '(b, y) <- ostep c (fst t) x ;; '(d, z) <- ostep c (snd t) x ;; Ok ((b, d), percent_difference_nz y z)).
      assert (BV : forall c' : ctx F, ostep c' (src_box SVolume) tt = ('(v) <- bar_volume c' ;; Ok (src_box SVolume, v))).
      { intros c'. unfold src_box. rewrite ostep_box. unfold src_step, src_value. destruct (bar_volume c'); reflexivity. }
      transitivity (run step2 c (short, long) (ticks (length bs))).
      + apply (run_repack vo_step step2 (fun t => mkVo (fst t) (snd t)) (ticks (length bs)) c (short, long)).
        intros c' t x. unfold vo_step, step2. rewrite BV. destruct (bar_volume c') as [v|]; cbn [rbind vo_sma vo_lma]; [|reflexivity].
        destruct (ostep c' (fst t) v) as [[? y]|]; cbn [rbind]; [|reflexivity]. destruct (ostep c' (snd t) v) as [[? z]|]; cbn [rbind fst snd]; [|reflexivity].
        unfold vo_value, percent_difference_nz, ps_diff, ps_div, times100. destruct y as [y|], z as [z|]; try reflexivity. destruct (z ==? fZ 0); reflexivity.
      + symmetry. apply (run_repack step step2 (fun t => (src_box SVolume, fst t, snd t)) (ticks (length bs)) c (short, long)).
        intros c' t x. unfold step, step2. cbn [fst snd]. rewrite BV. destruct (bar_volume c') as [v|]; cbn [rbind]; [|reflexivity].
        destruct (ostep c' (fst t) v) as [[? y]|]; cbn [rbind]; [|reflexivity]. destruct (ostep c' (snd t) v) as [[? z]|]; cbn [rbind fst snd]; reflexivity.
    - rewrite (two_pipe _ c (src_box SVolume) short long percent_difference_nz step) by (intros; reflexivity). rewrite FE. reflexivity.
  Qed.

  (** The default configurations. *)
  Lemma ma_boxed k len (c : ctx F) xs (m : any_ma) : ma_new k len = Ok m -> run ostep c m xs = run_new (ma_new k len) ma_step c xs.
  Proof. intros E. unfold run_new. rewrite E. reflexivity. Qed.
  Lemma closes (c : ctx F) bs : fresh_over c bs -> run ostep c (src_box SClose) (ticks (length bs)) = Ok (map b_close bs).
  Proof.
    intros H. assert (FE := src_feeds SClose c bs H (proj2 (Forall_forall _ _) (fun _ _ => I))). unfold feeds in FE. rewrite map_length in FE. exact FE.
  Qed.
  Theorem C58_macd_default (c : ctx F) bs : fresh_over c bs ->
    run_new macd_default macd_step c (ticks (length bs)) =
    (sm <- run_new (ema_new 12) ema_step c (map b_close bs) ;;
     lm <- run_new (ema_new 26) ema_step c (map b_close bs) ;;
     sg <- run_new (ema_new 9) ema_step c (zip minus sm lm) ;;
     Ok (combine (zip minus sm lm) sg)).
  Proof.
    intros H. unfold run_new at 1, macd_default.
    destruct (ma_new EMA 12) as [a|] eqn:A; [|discriminate]. destruct (ma_new EMA 26) as [b|] eqn:B; [|discriminate]. destruct (ma_new EMA 9) as [g|] eqn:G; [|discriminate].
    cbn [rbind]. rewrite C58_macd, !(closes c bs H). cbn [rbind]. rewrite (ma_boxed _ _ _ _ _ A), (ma_boxed _ _ _ _ _ B), !ma_run_ema.
    destruct (run_new (ema_new 12) ema_step c (map b_close bs)) as [sm|]; cbn [rbind]; [|reflexivity].
    destruct (run_new (ema_new 26) ema_step c (map b_close bs)) as [lm|]; cbn [rbind]; [|reflexivity].
    rewrite (ma_boxed _ _ _ _ _ G), ma_run_ema. reflexivity.
  Qed.
  Theorem C58_awesome_default (c : ctx F) bs : fresh_over c bs -> Forall (src_ok SHL2) bs ->
    run_new ao_default ao_step c (ticks (length bs)) =
    (sm <- run_new (sma_new 5) sma_step c (map (src_of SHL2) bs) ;;
     lm <- run_new (sma_new 34) sma_step c (map (src_of SHL2) bs) ;;
     let line := zip minus sm lm in Ok (zip minus line (None :: line))).
  Proof.
    intros H OK. unfold run_new at 1, ao_default.
    destruct (ma_new SMA 34) as [b|] eqn:B; [|discriminate]. destruct (ma_new SMA 5) as [a|] eqn:A; [|discriminate].
    cbn [rbind]. rewrite C58_awesome. assert (FE := src_feeds SHL2 c bs H OK). unfold feeds in FE. rewrite map_length in FE. rewrite !FE. cbn [rbind].
    rewrite (ma_boxed _ _ _ _ _ A), (ma_boxed _ _ _ _ _ B), !ma_run_sma. reflexivity.
  Qed.
  Theorem C58_volume_default (c : ctx F) bs : fresh_over c bs ->
    run_new vo_default vo_step c (ticks (length bs)) =
    (sm <- run_new (ema_new 5) ema_step c (map b_volume bs) ;;
     lm <- run_new (ema_new 10) ema_step c (map b_volume bs) ;; Ok (zip percent_difference_nz sm lm)).
  Proof.
    intros H. unfold run_new at 1, vo_default. destruct (ma_new EMA 5) as [a|] eqn:A; [|discriminate]. destruct (ma_new EMA 10) as [b|] eqn:B; [|discriminate].
    cbn [rbind]. rewrite (C58_volume c bs a b H), (ma_boxed _ _ _ _ _ A), (ma_boxed _ _ _ _ _ B), !ma_run_ema. reflexivity.
  Qed.
  (** The price oscillator's defaults are swapped: its "short" average is the
      21-bar one and its "long" average the 10-bar one. *)
  Theorem C58_price_default (c : ctx F) bs : fresh_over c bs ->
    run_new po_default po_step c (ticks (length bs)) =
    (sm <- run_new (sma_new 21) sma_step c (map b_close bs) ;;
     lm <- run_new (sma_new 10) sma_step c (map b_close bs) ;; Ok (zip percent_difference sm lm)).
  Proof.
    intros H. unfold run_new at 1, po_default. destruct (ma_new SMA 10) as [b|] eqn:B; [|discriminate]. destruct (ma_new SMA 21) as [a|] eqn:A; [|discriminate].
    cbn [rbind]. rewrite C58_price, (closes c bs H). cbn [rbind]. rewrite (ma_boxed _ _ _ _ _ A), (ma_boxed _ _ _ _ _ B), !ma_run_sma. reflexivity.
  Qed.
End C58.
Example C58_ex : gives same_opt
  (s <- ma_new SMA 1 ;; l <- ma_new SMA 2 ;; run po_step ctx6 (mkPo (src_box SClose) s l) (ticks 6))
  [None; Some (fmul (fdiv (q 1) (q 12)) (q 100)); Some (fmul (fdiv (lit (-1) 2) (lit 25 2)) (q 100));
   Some (fmul (fdiv (lit (-3) 2) (lit 21 2)) (q 100)); Some (fmul (fdiv (lit 1 2) (lit 19 2)) (q 100)); Some (fmul (fdiv (lit 5 2) (lit 25 2)) (q 100))] = true.
Proof. vm_compute. reflexivity. Qed.

(** ** C59 *)
Section C59.
  Context {F : Type} {NF : Num F}.
  Local Open Scope num_scope.
  (** Upper and lower band. *)
  Definition upper_band (mult basis dev : F) : F := basis + dev * mult.
  Definition lower_band (mult basis dev : F) : F := basis - dev * mult.
  Theorem C59_bollinger len mult (c : ctx F) src xs : (1 <= len)%nat -> feeds c src xs ->
    exists ms ds pbs ws, run_new (sma_new len) sma_step c xs = Ok ms /\ run_new (stdev_new len true) stdev_step c xs = Ok ds /\
      run_new (bb_new src len mult) bbpb_step c (ticks (length xs)) = Ok pbs /\
      run_new (bb_new src len mult) bbw_step c (ticks (length xs)) = Ok ws /\
      pbs = zip3 (fun x m d => match x, m, d with
                   | Some x, Some m, Some d =>
                       let u := upper_band mult m d in let l := lower_band mult m d in
                       if u - l ==? fZ 0 then None else Some ((x - l) / (u - l))
                   | _, _, _ => None end) xs ms ds /\
      ws = zip3 (fun x m d => match x, m, d with
                   | Some _, Some m, Some d => if m ==? fZ 0 then None else Some ((upper_band mult m d - lower_band mult m d) / m)
                   | _, _, _ => None end) xs ms ds.
  Proof.
    intros L H. destruct (bb_run len mult c src xs L H) as [R1 R2]. rewrite R1, R2.
    rewrite !(makes_run _ _ _ _ c _ (sma_makes len L) I), !(makes_run _ _ _ _ c _ (stdev_makes true len L) I).
    do 4 eexists. do 4 (split; [reflexivity|]).
    rewrite !zip3_self. split; reflexivity.
  Qed.
End C59.
Section C59x.
  Local Open Scope R_scope.
  (** The deviation used: population standard deviation, differences below
      1e-10 counted as zero. *)
  Definition Rband_dev (w : list R) : R := sqrt (Rssd_snap w / INR (length w)).
  Lemma window_full len (vs : list R) : window len (map Some vs) = full_window len vs.
  Proof. unfold window, full_window, lastn. rewrite map_length, skipn_map, all_some_map_Some. reflexivity. Qed.
  Lemma sma_full len h : (1 <= len)%nat -> h <> [] -> sma_out len (full h) = option_map (fun w => Fin (Rmean w)) (full_window len h).
  Proof. intros L N. rewrite full_warm. apply sma_warm; exact L. Qed.
  Lemma stdev_full len h : (2 <= len)%nat -> h <> [] -> stdev_out true len (full h) = option_map (fun w => Fin (Rband_dev w)) (full_window len h).
  Proof.
    intros L N. rewrite <- lift_full, stdev_exact by first [exact L|destruct h; [contradiction|discriminate]]. rewrite window_full.
    destruct (full_window len h) as [w|] eqn:W; [|reflexivity]. apply full_window_Some in W. destruct W as (_ & LW & _).
    cbn [option_map]. unfold Rband_dev. rewrite LW, Rminus_0_r. reflexivity.
  Qed.
  Lemma newest_full h v : newest h = Some v -> join (newest (full h)) = Some (Fin v).
  Proof. intros E. unfold full. rewrite newest_map, E. reflexivity. Qed.
  Theorem C59_exact len mult (c : ctx xr) src vs : (2 <= len)%nat -> feeds c src (full vs) ->
    exists pbs ws, run_new (bb_new src len (Fin mult)) bbpb_step c (ticks (length vs)) = Ok pbs /\
      run_new (bb_new src len (Fin mult)) bbw_step c (ticks (length vs)) = Ok ws /\ length pbs = length vs /\ length ws = length vs /\
    forall i v pb w, nth_error vs i = Some v -> nth_error pbs i = Some pb -> nth_error ws i = Some w ->
      match full_window len (firstn (S i) vs) with
      | None => pb = None /\ w = None
      | Some win =>
          let m := Rmean win in let d := mult * Rband_dev win in
          (d = 0 -> pb = None) /\
          (d <> 0 -> pb = Some (Fin ((v - (m - d)) / ((m + d) - (m - d)))) /\ (v = m -> pb = Some (Fin (1 / 2)))) /\
          (m = 0 -> w = None) /\
          (m <> 0 -> w = Some (Fin (2 * d / m)))
      end.
  Proof.
    intros L H. assert (L1 : (1 <= len)%nat) by lia. destruct (bb_run len (Fin mult) c src _ L1 H) as [R1 R2]. unfold full in R1 at 1, R2 at 1. rewrite map_length in R1, R2. rewrite R1, R2.
    do 2 eexists. do 2 (split; [reflexivity|]). unfold full. rewrite !length_each_prefix, !map_length. do 2 (split; [reflexivity|]). fold (full vs).
    intros i v pb w Nv Np Nw. apply nth_each in Np. destruct Np as [_ ->]. apply nth_each in Nw. destruct Nw as [_ ->].
    rewrite full_firstn. set (h := firstn (S i) vs).
    assert (NH : newest h = Some v) by (unfold h; rewrite (firstn_S_nth _ _ _ Nv); apply newest_snoc).
    assert (NN : h <> []) by (intros E; rewrite E in NH; discriminate).
    unfold bbpb_out, bbw_out. rewrite (newest_full h v NH), (sma_full len h L1 NN), (stdev_full len h L NN).
    destruct (full_window len h) as [win|] eqn:W; [|split; reflexivity]. cbn [option_map]. cbv zeta. unfold bbpb_value, bbw_value. cbv zeta.
    set (s := Rband_dev win). set (m := Rmean win). rewrite !fin_mul, !fin_add, !fin_sub, !fin_Z, !fin_eq.
    split; [|split; [|split]].
    - intros D. destruct (Reqb_spec (m + s * mult - (m - s * mult)) 0) as [E|E]; [reflexivity|]. exfalso. apply E. lra.
    - intros D. destruct (Reqb_spec (m + s * mult - (m - s * mult)) 0) as [E|E]; [exfalso; apply D; lra|]. rewrite fin_div by exact E.
      split; [do 2 f_equal; f_equal; ring|]. intros ->. do 2 f_equal. field. lra.
    - intros M. destruct (Reqb_spec m 0); [reflexivity|contradiction].
    - intros M. destruct (Reqb_spec m 0); [contradiction|]. rewrite fin_div by exact M. do 2 f_equal. field. exact M.
  Qed.
End C59x.
Example C59_ex : gives same_opt (run_new (bb_new (src_box SClose) 2 (q 2)) bbw_step ctx6 (ticks 3))
   [None; Some (fdiv (q 4) (q 12)); Some (fdiv (q 2) (lit 25 2))] = true /\
  gives same_opt (run_new (bb_new (src_box SClose) 2 (q 2)) bbpb_step ctx6 (ticks 3)) [None; Some (lit 3 4); Some (lit 1 4)] = true.
Proof. vm_compute. auto. Qed.
Example C59_hyp_ex : feeds ctx6 (src_box SClose) (map b_close bars6). Proof. reflexivity. Qed.

(** ** C60 *)
Section C60.
  Context {F : Type} {NF : Num F}.
  Local Open Scope num_scope.
  Theorem C60_cci len (c : ctx F) src xs : (1 <= len)%nat -> feeds c src xs ->
    exists ms ds os, run_new (sma_new len) sma_step c xs = Ok ms /\ run_new (dev_new len) dev_step c xs = Ok ds /\
      run_new (cci_new src len) cci_step c (ticks (length xs)) = Ok os /\
      os = zip3 (fun x m d => match x, m, d with
                   | Some x, Some m, Some d => if d * lit 15 1000 ==? fZ 0 then None else Some ((x - m) / (d * lit 15 1000))
                   | _, _, _ => None end) xs ms ds.
  Proof.
    intros L H. rewrite (cci_run len c src xs L H).
    rewrite !(makes_run _ _ _ _ c _ (sma_makes len L) I), !(makes_run _ _ _ _ c _ (dev_makes len L) I).
    do 3 eexists. do 3 (split; [reflexivity|]).
    rewrite zip3_self. apply each_prefix_ext. intros p. unfold cci_out, cci_value. destruct (join (newest p)), (sma_out len p), (dev_out len p); reflexivity.
  Qed.
End C60.
Section C60x.
  Local Open Scope R_scope.
  Theorem C60_exact len (c : ctx xr) src vs : (2 <= len)%nat -> feeds c src (full vs) ->
    exists os, run_new (cci_new src len) cci_step c (ticks (length vs)) = Ok os /\ length os = length vs /\
    forall i v o, nth_error vs i = Some v -> nth_error os i = Some o ->
      match full_window len (firstn (S i) vs) with
      | None => o = None
      | Some w => (Rmad w = 0 -> o = None) /\ (Rmad w <> 0 -> o = Some (Fin ((v - Rmean w) / (15 / 1000 * Rmad w))))
      end.
  Proof.
    intros L H. assert (L1 : (1 <= len)%nat) by lia. pose proof (cci_run len c src _ L1 H) as R. unfold full in R at 1. rewrite map_length in R. rewrite R.
    eexists; split; [reflexivity|]. split; [unfold full; rewrite length_each_prefix, map_length; reflexivity|].
    intros i v o Nv No. apply nth_each in No. destruct No as [_ ->]. rewrite full_firstn. set (h := firstn (S i) vs).
    assert (NH : newest h = Some v) by (unfold h; rewrite (firstn_S_nth _ _ _ Nv); apply newest_snoc).
    assert (NN : h <> []) by (intros E; rewrite E in NH; discriminate).
    unfold cci_out. rewrite (newest_full h v NH), (sma_full len h L1 NN).
    rewrite <- lift_full, dev_exact, window_full by first [exact L|destruct h; [contradiction|discriminate]].
    destruct (full_window len h) as [w|]; [|reflexivity]. cbn [option_map]. unfold cci_value. cbn [ps_diff ps_div option_map].
    rewrite fin_lit, fin_mul, fin_Z, fin_eq, fin_sub by lia. split; intros D.
    - destruct (Reqb_spec (Rmad w * (15 / 1000)) 0) as [E|E]; [reflexivity|]. exfalso. apply E. rewrite D. lra.
    - destruct (Reqb_spec (Rmad w * (15 / 1000)) 0) as [E|E]; [exfalso; apply D; lra|]. rewrite fin_div by exact E. do 2 f_equal. f_equal. ring.
  Qed.
End C60x.
Example C60_ex : gives same_opt (run_new (cci_new (src_box SClose) 2) cci_step ctx6 (ticks 3))
   [None; Some (fdiv (q 1) (fmul (q 1) (lit 15 1000))); Some (fdiv (lit (-1) 2) (fmul (lit 1 2) (lit 15 1000)))] = true.
Proof. vm_compute. auto. Qed.

(** ** Values between 0 and 100 *)
Section Range100.
  Local Open Scope R_scope.
  (** Missing, between 0 and 100, or (only if [nan]) not a number. *)
  Definition ok100 (nan : Prop) (o : option xr) : Prop :=
    match o with None => True | Some (Fin r) => 0 <= r <= 100 | Some XNaN => nan | Some _ => False end.
  Lemma ok100_weaken (P Q : Prop) o : (P -> Q) -> ok100 P o -> ok100 Q o.
  Proof. destruct o as [[r| | |]|]; cbn; tauto. Qed.
  Lemma beats_ok nan (x : xr) l : ok100 nan (Some x) -> Forall (fun v => ok100 nan (Some v)) l ->
    let m := beats (fun v m => fltb m v) x l in
    ok100 nan (Some m) /\ (m = XNaN -> nan) /\ (forall r a, In (Fin r) (x :: l) -> m = Fin a -> r <= a).
  Proof.
    intros Hx Hl. cbv zeta. revert x Hx. induction Hl as [|y l Hy Hl IH]; intros x Hx.
    - rewrite beats_nil. split; [exact Hx|]. split; [intros ->; exact Hx|]. intros r a [E|[]] E2. rewrite E in E2. injection E2 as ->. lra.
    - rewrite beats_cons. destruct x as [a| | |]; try contradiction; destruct y as [b| | |]; try contradiction.
      + rewrite fin_lt. destruct (Rltb_spec a b) as [L|L].
        * destruct (IH (Fin b) Hy) as (A & B & C). split; [exact A|]. split; [exact B|]. intros r q I E.
          destruct I as [I|I]; [injection I as <-; apply Rle_trans with b; [lra|]; apply (C b q); [left; reflexivity|exact E]|]. apply (C r q); [exact I|exact E].
        * destruct (IH (Fin a) Hx) as (A & B & C). split; [exact A|]. split; [exact B|]. intros r q I E.
          destruct I as [I|[I|I]]; [apply (C r q); [left; exact I|exact E]| |apply (C r q); [right; exact I|exact E]].
          injection I as <-. apply Rle_trans with a; [lra|]. apply (C a q); [left; reflexivity|exact E].
      + change (fltb (Fin a) XNaN) with false. cbv iota. destruct (IH (Fin a) Hx) as (A & B & C). split; [exact A|]. split; [exact B|]. intros r q I E.
        destruct I as [I|[I|I]]; [apply (C r q); [left; exact I|exact E]|discriminate|apply (C r q); [right; exact I|exact E]].
      + change (fltb XNaN (Fin b)) with false. cbv iota. destruct (IH XNaN Hx) as (A & B & C). split; [exact A|]. split; [exact B|]. intros r q I E.
        exfalso. assert (NN : beats (fun v m : xr => fltb m v) XNaN l = XNaN) by (clear; induction l as [|z l IH]; [reflexivity|rewrite beats_cons; exact IH]). congruence.
      + change (fltb XNaN XNaN) with false. cbv iota. destruct (IH XNaN Hx) as (A & B & C). split; [exact A|]. split; [exact B|]. intros r q I E.
        destruct I as [I|[I|I]]; [discriminate|discriminate|apply (C r q); [right; exact I|exact E]].
  Qed.
  Lemma beats_ok_min nan (x : xr) l : ok100 nan (Some x) -> Forall (fun v => ok100 nan (Some v)) l ->
    let m := beats (fun v m => fltb v m) x l in
    ok100 nan (Some m) /\ (m = XNaN -> nan) /\ (forall r a, In (Fin r) (x :: l) -> m = Fin a -> a <= r).
  Proof.
    intros Hx Hl. cbv zeta. revert x Hx. induction Hl as [|y l Hy Hl IH]; intros x Hx.
    - rewrite beats_nil. split; [exact Hx|]. split; [intros ->; exact Hx|]. intros r a [E|[]] E2. rewrite E in E2. injection E2 as ->. lra.
    - rewrite beats_cons. destruct x as [a| | |]; try contradiction; destruct y as [b| | |]; try contradiction.
      + rewrite fin_lt. destruct (Rltb_spec b a) as [L|L].
        * destruct (IH (Fin b) Hy) as (A & B & C). split; [exact A|]. split; [exact B|]. intros r q I E.
          destruct I as [I|I]; [injection I as <-; apply Rle_trans with b; [|lra]; apply (C b q); [left; reflexivity|exact E]|]. apply (C r q); [exact I|exact E].
        * destruct (IH (Fin a) Hx) as (A & B & C). split; [exact A|]. split; [exact B|]. intros r q I E.
          destruct I as [I|[I|I]]; [apply (C r q); [left; exact I|exact E]| |apply (C r q); [right; exact I|exact E]].
          injection I as <-. apply Rle_trans with a; [|lra]. apply (C a q); [left; reflexivity|exact E].
      + change (fltb XNaN (Fin a)) with false. cbv iota. destruct (IH (Fin a) Hx) as (A & B & C). split; [exact A|]. split; [exact B|]. intros r q I E.
        destruct I as [I|[I|I]]; [apply (C r q); [left; exact I|exact E]|discriminate|apply (C r q); [right; exact I|exact E]].
      + change (fltb (Fin b) XNaN) with false. cbv iota. destruct (IH XNaN Hx) as (A & B & C). split; [exact A|]. split; [exact B|]. intros r q I E.
        exfalso. assert (NN : beats (fun v m : xr => fltb v m) XNaN l = XNaN) by (clear; induction l as [|z l IH]; [reflexivity|rewrite beats_cons; destruct z; exact IH]). congruence.
      + change (fltb XNaN XNaN) with false. cbv iota. destruct (IH XNaN Hx) as (A & B & C). split; [exact A|]. split; [exact B|]. intros r q I E.
        destruct I as [I|[I|I]]; [discriminate|discriminate|apply (C r q); [right; exact I|exact E]].
  Qed.
  Lemma ok_present nan l : Forall (ok100 nan) l -> Forall (fun v => ok100 nan (Some v)) (present l).
  Proof. induction 1 as [|[x|] l H F IH]; cbn [present]; [constructor|constructor; assumption|assumption]. Qed.
  Lemma Forall_lastn {A} (P : A -> Prop) n l : Forall P l -> Forall P (lastn n l).
  Proof. rewrite !Forall_forall. intros H x I. apply H. exact (lastn_In _ _ _ I). Qed.
  Lemma Forall_snoc {A} (P : A -> Prop) l x : Forall P (l ++ [x]) -> Forall P l /\ P x.
  Proof. intros H. apply Forall_app in H. destruct H as [H1 H2]. inversion H2; auto. Qed.
  Lemma present_last {A} n (l : list (option A)) v : (1 <= n)%nat -> In v (present (lastn n (l ++ [Some v]))).
  Proof.
    intros L. destruct n as [|n]; [lia|]. rewrite lastn_S_snoc. rewrite present_snoc_Some, in_app_iff. right. left. reflexivity.
  Qed.
  (** Stoch of a value against its own recent values. *)
  Definition thrice (x : option xr) : option xr * option xr * option xr := (x, x, x).
  Lemma stoch_ok100 nan len i0 l : (1 <= len)%nat -> Forall (ok100 nan) l -> ok100 nan (stoch_out len i0 (map thrice l)).
  Proof.
    intros L. induction l as [|x l IH] using rev_ind; intros F; [exact I|].
    pose proof F as F'. apply Forall_snoc in F. destruct F as [Fl Fx]. rewrite map_app. cbn [map]. unfold thrice at 2. rewrite stoch_out_snoc.
    destruct (len <=? i0 + length (map thrice l) + 1)%nat; [|exact I].
    destruct x as [v|]; [|exact I]. rewrite !map_map. cbn [thrice fst snd]. rewrite !map_id.
    assert (IN := present_last len l v L). assert (FP := ok_present nan _ (Forall_lastn _ len _ F')).
    destruct (present (lastn len (l ++ [Some v]))) as [|w t] eqn:EP; [destruct IN|]. cbn [best].
    inversion FP as [|? ? Fw Ft]; subst.
    destruct (beats_ok nan w t Fw Ft) as (A1 & A2 & A3). destruct (beats_ok_min nan w t Fw Ft) as (B1 & B2 & B3).
    destruct (beats (fun v m : xr => fltb m v) w t) as [mx| | |] eqn:EX; try contradiction.
    2:{ replace (feqb (fsub XNaN (beats (fun v0 m : xr => fltb v0 m) w t)) (fZ 0)) with false by (destruct (beats (fun v0 m : xr => fltb v0 m) w t); reflexivity).
        cbv iota. unfold stoch_val. replace (fsub XNaN (beats (fun v0 m : xr => fltb v0 m) w t)) with XNaN by (destruct (beats (fun v0 m : xr => fltb v0 m) w t); reflexivity).
        cbn [ok100]. destruct (fmul (fZ 100) (fsub v _)); apply A2; reflexivity. }
    destruct (beats (fun v m : xr => fltb v m) w t) as [mn| | |] eqn:EN; try contradiction.
    2:{ change (fsub (Fin mx) XNaN) with XNaN. change (feqb XNaN (fZ 0)) with false. cbv iota. unfold stoch_val. change (fsub (Fin mx) XNaN) with XNaN.
        destruct (fmul (fZ 100) (fsub v XNaN)); apply B2; reflexivity. }
    rewrite fin_sub, fin_Z, fin_eq. destruct (Reqb_spec (mx - mn) 0) as [E|E]; [apply IH; exact Fl|].
    unfold stoch_val. destruct v as [r| | |]; try contradiction.
    - rewrite !fin_sub, fin_Z, fin_mul, fin_div by exact E. pose proof (A3 r mx IN eq_refl) as U. pose proof (B3 r mn IN eq_refl) as D. cbn [ok100].
      destruct (ratio_pos (r - mn) (mx - mn)) as [Q1 Q2]; [lra|exact E|]. unfold Rdiv in *. rewrite Rmult_assoc. lra.
    - change (fsub XNaN (Fin mn)) with XNaN. change (fmul (fZ 100) XNaN) with XNaN. change (fdiv XNaN (fsub (Fin mx) (Fin mn))) with XNaN. exact Fx.
  Qed.
  (** Sma. *)
  Lemma all_fin100 nan l : Forall (ok100 nan) l -> (exists h, l = lift h /\ forall r, In (Some r) h -> 0 <= r <= 100) \/ (In (Some XNaN) l /\ nan).
  Proof.
    induction 1 as [|x l H F IH]; [left; exists []; split; [reflexivity|intros r []]|].
    destruct x as [[r| | |]|]; try contradiction.
    - destruct IH as [(h & -> & P)|[I N]]; [left; exists (Some r :: h); split; [reflexivity|]|right; split; [right; exact I|exact N]].
      intros s [E|I]; [injection E as <-; exact H|exact (P s I)].
    - right. split; [left; reflexivity|exact H].
    - destruct IH as [(h & -> & P)|[I N]]; [left; exists (None :: h); split; [reflexivity|]|right; split; [right; exact I|exact N]].
      intros s [E|I]; [discriminate|exact (P s I)].
  Qed.
  Lemma racc_nan len l : In (Some XNaN) l -> racc len l = XNaN.
  Proof.
    induction l as [|x l IH] using rev_ind; intros I; [destruct I|]. rewrite racc_snoc. rewrite in_app_iff in I.
    assert (E : oadd (racc len l) x = XNaN).
    { destruct I as [I|[->|[]]]; [rewrite (IH I); destruct x as [x|]; [apply add_nan|reflexivity]|apply nan_add]. }
    rewrite E. destruct (join (ago (len - 1) (l ++ [x]))) as [y|]; [|reflexivity]. cbn [osub]. destruct y; reflexivity.
  Qed.
  Lemma sma_ok100 nan len l : (1 <= len)%nat -> l <> [] -> Forall (ok100 nan) l -> ok100 nan (sma_out len l).
  Proof.
    intros L N F. destruct (all_fin100 nan l F) as [(h & -> & P)|[I NA]].
    - rewrite sma_exact by first [exact L|destruct h; [contradiction N; reflexivity|discriminate]].
      destruct (window len h) as [w|] eqn:W; [|exact I]. cbn [option_map ok100].
      pose proof (window_length _ _ _ W) as LW. unfold window in W. destruct (len <=? length h)%nat; [|discriminate]. apply all_some_Some in W.
      apply Rmean_in; [destruct w; [cbn in LW; lia|discriminate]|]. apply Forall_forall. intros r Ir. apply P. apply (lastn_In len). rewrite W. apply in_map. exact Ir.
    - unfold sma_out. destruct (len =? 1)%nat.
      + destruct l as [|x l _] using rev_ind; [contradiction|]. rewrite newest_snoc. apply Forall_snoc in F. apply F.
      + destruct l as [|x l _] using rev_ind; [contradiction|]. destruct (window len (l ++ [x])); [|exact Logic.I]. cbn [option_map]. rewrite rsum_snoc.
        assert (E : oadd (racc len l) x = XNaN).
        { rewrite in_app_iff in I. destruct I as [I|[->|[]]]; [rewrite (racc_nan len l I); destruct x as [x|]; [apply add_nan|reflexivity]|apply nan_add]. }
        rewrite E, nan_div. exact NA.
  Qed.
  (** Rsi: finite as soon as one of the first [len] changes is not zero. *)
  Definition moved (len : nat) (vs : list R) : Prop := Exists (fun d => d <> 0) (firstn len (diffs vs)).
  Lemma Rsum_pos_one l : Forall (fun x => 0 <= x) l -> Exists (fun x => 0 < x) l -> 0 < Rsum l.
  Proof.
    induction 1 as [|x l P F IH]; intros E; inversion E; subst; cbn; pose proof (Rsum_nonneg l F); [lra|]. assert (0 < Rsum l) by (apply IH; assumption). lra.
  Qed.
  Lemma Rsmooth_pos_one alpha len vs e : (1 <= len)%nat -> 0 <= alpha < 1 -> Forall (fun x => 0 <= x) vs -> Exists (fun x => 0 < x) (firstn len vs) ->
    Rsmooth alpha len vs = Some e -> 0 < e.
  Proof.
    intros L A F E. unfold Rsmooth. destruct (length vs <? len)%nat eqn:LV; [discriminate|]. apply Nat.ltb_ge in LV. intros Q. injection Q as <-.
    assert (M : 0 < Rmean (firstn len vs)).
    { unfold Rmean. apply Rmult_lt_0_compat; [apply Rsum_pos_one; [|exact E]|apply Rinv_0_lt_compat, PExact.INR_pos; rewrite firstn_length; lia].
      rewrite Forall_forall in *. intros x I. apply F. exact (firstn_In _ _ _ I). }
    assert (F' : Forall (fun x => 0 <= x) (skipn len vs)) by (rewrite Forall_forall in *; intros x I; apply F; exact (skipn_In _ _ _ I)).
    revert M. generalize (Rmean (firstn len vs)). induction F' as [|x t Px Ft IH]; intros m M; [exact M|]. cbn [fold_left]. apply IH.
    assert (0 <= alpha * x) by (apply Rmult_le_pos; lra). assert (0 < (1 - alpha) * m) by (apply Rmult_lt_0_compat; lra). lra.
  Qed.
  Lemma firstn_diffs_prefix len vs i : (length (diffs (firstn (S i) vs)) >= len)%nat -> firstn len (diffs (firstn (S i) vs)) = firstn len (diffs vs).
  Proof.
    intros H. assert (P : forall (l : list R) k, diffs (firstn (S k) l) = firstn k (diffs l)).
    { clear. induction l as [|x l IH]; intros k; [destruct k; reflexivity|]. destruct k as [|k]; [reflexivity|]. destruct l as [|y l]; [reflexivity|].
      change (firstn (S (S k)) (x :: y :: l)) with (x :: y :: firstn k l). change (diffs (x :: y :: firstn k l)) with ((y - x) :: diffs (y :: firstn k l)).
      change (y :: firstn k l) with (firstn (S k) (y :: l)). rewrite IH. reflexivity. }
    rewrite P, firstn_firstn. rewrite P, firstn_length in H. f_equal. lia.
  Qed.
  Lemma Rrsi_ok100 len vs : (2 <= len)%nat -> ok100 (~ moved len vs) (Rrsi len vs).
  Proof.
    intros L. destruct (Rrsi len vs) as [r|] eqn:E; [|exact I]. pose proof (Rrsi_range len vs r L E) as B.
    destruct r as [r| | |]; try exact B. cbn [ok100]. intros M.
    unfold Rrsi in E. destruct (Rsmooth _ len (Rgains vs)) as [u|] eqn:U; [|discriminate]. destruct (Rsmooth _ len (Rlosses vs)) as [d|] eqn:D; [|discriminate].
    apply some_inj in E. unfold Rrsi_of in E. destruct (Req_EM_T d 0) as [Ed|]; [|discriminate]. destruct (Req_EM_T u 0) as [Eu|]; [|discriminate].
    assert (A : 0 <= 1 / INR len < 1).
    { destruct (inv_len_range len) as [A1 _]; [lia|]. split; [exact A1|]. assert (2 <= INR len) by (apply (le_INR 2); exact L).
      apply (Rmult_lt_reg_r (INR len)); [lra|]. unfold Rdiv. rewrite Rmult_assoc, Rinv_l; lra. }
    unfold moved in M. apply Exists_exists in M. destruct M as (x & I & NX).
    destruct (Rlt_or_le 0 x) as [P|P].
    - assert (0 < u); [|lra]. refine (Rsmooth_pos_one _ len _ u _ A (Rgains_nonneg vs) _ U); [lia|].
      apply Exists_exists. exists (Rmax x 0). split; [|rewrite Rmax_left; lra]. unfold Rgains. rewrite firstn_map. apply in_map_iff. eauto.
    - assert (0 < d); [|lra]. refine (Rsmooth_pos_one _ len _ d _ A (Rlosses_nonneg vs) _ D); [lia|].
      apply Exists_exists. exists (Rmax (- x) 0). split; [|rewrite Rmax_left; lra]. unfold Rlosses. rewrite firstn_map. apply in_map_iff. eauto.
  Qed.
  Lemma Rrsi_ok_prefix len vs i : (2 <= len)%nat -> ok100 (~ moved len vs) (Rrsi len (firstn (S i) vs)).
  Proof.
    intros L. pose proof (Rrsi_ok100 len (firstn (S i) vs) L) as H. destruct (Rrsi len (firstn (S i) vs)) as [r|] eqn:E; [|exact I].
    eapply ok100_weaken; [|exact H]. unfold moved. intros N M. apply N. rewrite firstn_diffs_prefix; [exact M|].
    assert (D : is_some (Rrsi len (firstn (S i) vs)) = true) by (rewrite E; reflexivity). rewrite Rrsi_defined in D by lia. apply Nat.ltb_lt in D.
    rewrite diffs_length. lia.
  Qed.
  Lemma rsi_full len vs : (2 <= len)%nat -> rsi_out len (full vs) = Rrsi len vs.
  Proof. intros L. rewrite full_warm. apply rsi_exact; exact L. Qed.
End Range100.

(** ** C61 *)
Section C61.
  Context {F : Type} {NF : Num F}.
  Local Open Scope num_scope.
  (** The streak after one more value. *)
  Definition next_streak (prev cur ud : option F) : option F :=
    match prev, cur with
    | Some p, Some v =>
        let s := match ud with Some s => s | None => fZ 0 end in
        if p ==? v then Some (fZ 0)
        else if p <? v then (if s <=? fZ 0 then Some (fZ 1) else Some (s + fZ 1))
        else (if fZ 0 <=? s then Some (fZ (-1)) else Some (s - fZ 1))
    | None, None => Some (fZ 0)
    | _, _ => let s := match ud with Some s => s | None => fZ 0 end in
        if fZ 0 <=? s then Some (fZ (-1)) else Some (s - fZ 1)
    end.
  Fixpoint streaks_from (prev ud : option F) (xs : list (option F)) : list (option F) :=
    match xs with [] => [] | x :: t => let s := next_streak prev x ud in s :: streaks_from x s t end.
  Definition streaks (xs : list (option F)) : list (option F) := streaks_from None None xs.
  Lemma streaks_each xs : streaks xs = each_prefix ud_out xs.
  Proof.
    assert (G : forall t h, streaks_from (join (newest h)) (ud_out h) t = scan ud_out h t).
    { induction t as [|x t IH]; intros h; [reflexivity|]. cbn [streaks_from scan]. rewrite ud_out_snoc.
      assert (E : next_streak (join (newest h)) x (ud_out h) = compute_up_down x (join (newest h)) (ud_out h)).
      { unfold next_streak, compute_up_down, feqb_opt, ps_nz, fgtb, fgeb. destruct (join (newest h)), x, (ud_out h); reflexivity. }
      rewrite E. f_equal. rewrite <- IH, newest_snoc, ud_out_snoc. reflexivity. }
    unfold streaks. rewrite each_prefix_scan. apply (G xs []).
  Qed.
  Theorem C61_connors l1 l2 l3 (c : ctx F) src xs : (2 <= l1)%nat -> (2 <= l2)%nat -> (1 <= l3)%nat -> feeds c src xs -> warmed xs ->
    exists rs us rocs ks os,
      run_new (rsi_new l1) rsi_step c xs = Ok rs /\
      run_new (rsi_new l2) rsi_step c (streaks xs) = Ok us /\
      run_new (roc_new 1) roc_step c xs = Ok rocs /\ run_new (prank_new l3) prank_step c rocs = Ok ks /\
      run_new (crsi_new src l1 l2 l3) crsi_step c (ticks (length xs)) = Ok os /\
      os = zip3 (fun r u k => match r, u, k with Some r, Some u, Some k => Some ((r + u + k) / fZ 3) | _, _, _ => None end) rs us ks.
  Proof.
    intros L1 L2 L3 H W. rewrite (crsi_run l1 l2 l3 c src xs L1 L2 L3 H W), streaks_each.
    rewrite (makes_run _ _ _ _ c _ (rsi_makes l1 L1) W), (makes_run _ _ _ _ c _ (rsi_makes l2 L2) (ud_out_warmed xs)).
    rewrite (makes_run _ _ _ _ c _ (roc_makes 1 ltac:(lia)) I).
    eexists. eexists. eexists. eexists. eexists. do 3 (split; [reflexivity|]). rewrite (makes_run _ _ _ _ c _ (prank_makes l3 L3) I).
    split; [reflexivity|]. split; [reflexivity|]. rewrite !each_prefix_each_prefix, zip3_each. reflexivity.
  Qed.
End C61.
Section C61x.
  Local Open Scope R_scope.
  (** The streak of a history: 0 when the last value repeats the one before,
      otherwise the length of the run of rises or (negative) of falls; the
      first value counts as a fall. *)
  Fixpoint streak_rev (l : list R) : Z :=
    match l with
    | [] => 0
    | x :: t =>
        match t with
        | [] => -1
        | y :: _ =>
            let s := streak_rev t in
            if Req_EM_T x y then 0
            else if Rlt_dec y x then (if (s <=? 0)%Z then 1 else s + 1)
            else (if (0 <=? s)%Z then -1 else s - 1)
        end
    end%Z.
  Definition streak (h : list R) : Z := streak_rev (rev h).
  Lemma streak_1 x : streak [x] = (-1)%Z. Proof. reflexivity. Qed.
  Lemma streak_snoc h y x : streak (h ++ [y; x]) =
    (let s := streak (h ++ [y]) in
     if Req_EM_T x y then 0 else if Rlt_dec y x then (if s <=? 0 then 1 else s + 1) else (if 0 <=? s then -1 else s - 1))%Z.
  Proof. unfold streak. rewrite !rev_app_distr. reflexivity. Qed.
  (** It does count: after a value that is not a rise, [n] rises give [n]; *)
  Theorem C61_streak_rises t a w : w <> [] -> rising (a :: w) -> (forall y, newest t = Some y -> a <= y) ->
    streak (t ++ a :: w) = Z.of_nat (length w).
  Proof.
    intros N R H. induction w as [|b w IH] using rev_ind; [congruence|]. clear N.
    assert (S0 : (streak (t ++ [a]) <= 0)%Z).
    { destruct t as [|y t _] using rev_ind; [cbn; lia|]. rewrite <- app_assoc. cbn [app]. rewrite streak_snoc. cbv zeta.
      specialize (H y (newest_snoc t y)). destruct (Req_EM_T a y); [lia|]. destruct (Rlt_dec y a); [lra|]. destruct (0 <=? streak (t ++ [y]))%Z eqn:E; lia. }
    destruct w as [|z w _] using rev_ind.
    - change (a :: [] ++ [b]) with [a; b]. rewrite streak_snoc. cbv zeta. inversion R as [|? ? P _]; subst.
      destruct (Req_EM_T b a); [lra|]. destruct (Rlt_dec a b); [|lra]. destruct (Z.leb_spec (streak (t ++ [a])) 0); [reflexivity|lia].
    - assert (R' : rising (a :: w ++ [z]) /\ 0 < b - z).
      { unfold rising in *. change (a :: (w ++ [z]) ++ [b]) with ((a :: w ++ [z]) ++ [b]) in R.
        replace ((a :: w ++ [z]) ++ [b]) with ((a :: w) ++ [z; b]) in R by (cbn; rewrite <- app_assoc; reflexivity). rewrite diffs_snoc in R.
        apply Forall_snoc in R. exact R. }
      destruct R' as [R1 R2]. specialize (IH ltac:(destruct w; discriminate) R1).
      replace (t ++ a :: (w ++ [z]) ++ [b]) with ((t ++ a :: w) ++ [z; b]) by (rewrite <- !app_assoc; reflexivity). rewrite streak_snoc.
      replace ((t ++ a :: w) ++ [z]) with (t ++ a :: w ++ [z]) by (rewrite <- app_assoc; reflexivity). rewrite IH. cbv zeta.
      destruct (Req_EM_T b z); [lra|]. destruct (Rlt_dec z b); [|lra]. rewrite !app_length. cbn [length].
      destruct (Z.leb_spec (Z.of_nat (length w + 1)) 0); lia.
  Qed.
  (** and after a value that is not a fall, [n] falls give [-n]. *)
  Theorem C61_streak_falls t y a w : w <> [] -> falling (a :: w) -> y <= a -> streak ((t ++ [y]) ++ a :: w) = (- Z.of_nat (length w))%Z.
  Proof.
    intros N R H. induction w as [|b w IH] using rev_ind; [congruence|]. clear N.
    assert (S0 : (0 <= streak ((t ++ [y]) ++ [a]))%Z).
    { rewrite <- app_assoc. cbn [app]. rewrite streak_snoc. cbv zeta.
      destruct (Req_EM_T a y); [lia|]. destruct (Rlt_dec y a); [|lra]. destruct (streak (t ++ [y]) <=? 0)%Z eqn:E; lia. }
    destruct w as [|z w _] using rev_ind.
    - change (a :: [] ++ [b]) with [a; b]. rewrite streak_snoc. cbv zeta. inversion R as [|? ? P _]; subst.
      destruct (Req_EM_T b a); [lra|]. destruct (Rlt_dec a b); [lra|]. destruct (Z.leb_spec 0 (streak ((t ++ [y]) ++ [a]))); [reflexivity|lia].
    - assert (R' : falling (a :: w ++ [z]) /\ b - z < 0).
      { unfold falling in *. replace (a :: (w ++ [z]) ++ [b]) with ((a :: w) ++ [z; b]) in R by (cbn; rewrite <- app_assoc; reflexivity). rewrite diffs_snoc in R.
        apply Forall_snoc in R. exact R. }
      destruct R' as [R1 R2]. specialize (IH ltac:(destruct w; discriminate) R1).
      replace ((t ++ [y]) ++ a :: (w ++ [z]) ++ [b]) with (((t ++ [y]) ++ a :: w) ++ [z; b]) by (rewrite <- !app_assoc; reflexivity). rewrite streak_snoc.
      replace (((t ++ [y]) ++ a :: w) ++ [z]) with ((t ++ [y]) ++ a :: w ++ [z]) by (rewrite <- !app_assoc; reflexivity). rewrite IH. cbv zeta.
      destruct (Req_EM_T b z); [lra|]. destruct (Rlt_dec z b); [lra|]. rewrite !app_length. cbn [length].
      destruct (Z.leb_spec 0 (- Z.of_nat (length w + 1))); lia.
  Qed.
  Lemma ud_full h : h <> [] -> ud_out (full h) = Some (Fin (IZR (streak h))).
  Proof.
    induction h as [|x h IH] using rev_ind; intros N; [congruence|]. clear N. rewrite full_app. change (full [x]) with [Some (Fin x)]. rewrite ud_out_snoc.
    destruct h as [|y h _] using rev_ind.
    - cbn [full map newest nth_error length Nat.sub join ud_out ud_state fold_left snd]. unfold compute_up_down. cbn [feqb_opt ps_nz]. unfold fgeb. rewrite fin_Z, fin_le.
      destruct (Rleb_spec 0 0); [reflexivity|lra].
    - rewrite (IH ltac:(destruct h; discriminate)). rewrite full_app. change (full [y]) with [Some (Fin y)]. rewrite newest_snoc. cbn [join].
      rewrite <- app_assoc. cbn [app]. rewrite streak_snoc. cbv zeta. set (s := streak (h ++ [y])).
      unfold compute_up_down. cbn [feqb_opt ps_nz]. unfold fgtb, fgeb. rewrite fin_eq. destruct (Reqb_spec y x) as [E|E], (Req_EM_T x y) as [E'|E']; try congruence; [reflexivity|].
      rewrite fin_lt, !fin_Z, !fin_le. unfold Rltb. destruct (Rlt_dec y x).
      + destruct (Z.leb_spec s 0) as [Z0|Z0].
        * destruct (Rleb_spec (IZR s) 0) as [Q|Q]; [reflexivity|]. apply (IZR_le s 0) in Z0. lra.
        * destruct (Rleb_spec (IZR s) 0) as [Q|Q]; [apply (le_IZR s 0) in Q; lia|]. rewrite fin_add, <- plus_IZR. reflexivity.
      + destruct (Z.leb_spec 0 s) as [Z0|Z0].
        * destruct (Rleb_spec 0 (IZR s)) as [Q|Q]; [reflexivity|]. apply (IZR_le 0 s) in Z0. lra.
        * destruct (Rleb_spec 0 (IZR s)) as [Q|Q]; [apply (le_IZR 0 s) in Q; lia|]. rewrite fin_sub, <- minus_IZR. reflexivity.
  Qed.
  Lemma ud_series vs : each_prefix ud_out (full vs) = full (each_prefix (fun h => IZR (streak h)) vs).
  Proof.
    unfold full at 1. rewrite each_prefix_of_map. unfold full. rewrite each_prefix_map. unfold each_prefix. apply map_ext_in. intros p I.
    apply nonnil_prefix in I. apply ud_full. exact I.
  Qed.
  (** The streak always moves at the second bar. *)
  Lemma streaks_moved len vs : (2 <= len)%nat -> (2 <= length vs)%nat -> moved len (each_prefix (fun h => IZR (streak h)) vs).
  Proof.
    intros L LV. destruct vs as [|a [|b vs]]; try (cbn in LV; lia). rewrite each_prefix_scan. cbn [scan app]. unfold moved.
    destruct len as [|len]; [lia|]. 
    change (diffs (IZR (streak [a]) :: IZR (streak [a; b]) :: scan (fun h => IZR (streak h)) [a; b] vs)) with
      ((IZR (streak [a; b]) - IZR (streak [a])) :: diffs (IZR (streak [a; b]) :: scan (fun h => IZR (streak h)) [a; b] vs)).
    cbn [firstn]. left. change (streak [a; b]) with (streak ([] ++ [a; b])). rewrite (streak_snoc [] a b). cbn [app]. rewrite streak_1. cbv zeta.
    destruct (Req_EM_T b a); [lra|]. destruct (Rlt_dec a b); cbn; lra.
  Qed.
  Lemma filter_le {A} (f : A -> bool) l : (length (filter f l) <= length l)%nat.
  Proof. induction l as [|x l IH]; [apply le_n|]. cbn [filter]. destruct (f x); cbn [length]; lia. Qed.
  Lemma prank_ok100 len i0 h : (1 <= len)%nat -> ok100 False (prank_out len i0 (lift h)).
  Proof.
    intros L. unfold prank_out. rewrite lift_newest. destruct (join (newest h)) as [r|]; [|exact I]. cbn [option_map].
    destruct (len <? i0 + length (lift h))%nat; [|exact I]. unfold prank_val. rewrite !fin_nat, fin_Z.
    assert (P : 0 < INR len) by (apply PExact.INR_pos; exact L). rewrite fin_div, fin_mul by lra. cbn [ok100].
    set (k := length (filter _ _)). assert (K : (k <= len)%nat).
    { unfold k. eapply Nat.le_trans; [apply filter_le|]. rewrite length_lastn. lia. }
    apply le_INR in K. pose proof (pos_INR k). destruct (ratio_pos (INR k) (INR len)) as [Q1 Q2]; lra.
  Qed.
  Lemma roc_full_lift vs : exists g, each_prefix (roc_out 1) (full vs) = lift g.
  Proof.
    exists (each_prefix (fun h => match ago 1 h, newest h with Some (Some p), Some (Some v) => if Req_EM_T p 0 then None else Some (100 * (v - p) / p) | _, _ => None end) (map Some vs)).
    rewrite <- lift_full. apply lift_each_prefix. intros p I. unfold roc_out. rewrite lift_newest, lift_ago.
    destruct (newest p) as [[v|]|], (ago 1 p) as [[a|]|]; cbn [join option_map]; try reflexivity.
    all: try (destruct (feqb _ _); reflexivity).
    rewrite fin_Z, fin_eq. destruct (Reqb_spec a 0), (Req_EM_T a 0); try contradiction; [reflexivity|]. rewrite fin_sub, fin_Z, fin_mul, fin_div by assumption. reflexivity.
  Qed.
  (** In exact arithmetic: between 0 and 100, provided one of the first changes
      of the price that enter the Rsi is not zero (otherwise NaN). *)
  Theorem C61_range l1 l2 l3 (c : ctx xr) src vs os i o : (2 <= l1)%nat -> (2 <= l2)%nat -> (1 <= l3)%nat -> feeds c src (full vs) ->
    run_new (crsi_new src l1 l2 l3) crsi_step c (ticks (length vs)) = Ok os -> nth_error os i = Some (Some o) ->
    (moved l1 vs -> exists r, o = Fin r /\ 0 <= r <= 100) /\ (~ moved l1 vs -> o = XNaN \/ exists r, o = Fin r /\ 0 <= r <= 100).
  Proof.
    intros L1 L2 L3 H E N.
    pose proof (crsi_run l1 l2 l3 c src _ L1 L2 L3 H ltac:(rewrite full_map; apply warmed_map_Some)) as R. unfold full in R at 1. rewrite map_length in R.
    rewrite E in R. injection R as R. rewrite R in N. apply nth_each in N. destruct N as [Hi N]. rewrite full_firstn in N. unfold crsi_out in N.
    set (h := firstn (S i) vs) in *. rewrite (rsi_full l1 h L1), ud_series, (rsi_full l2 _ L2) in N.
    destruct (roc_full_lift h) as [g EG]. rewrite EG in N.
    pose proof (Rrsi_ok_prefix l1 vs i L1) as O1. fold h in O1. pose proof (Rrsi_ok100 l2 (each_prefix (fun h => IZR (streak h)) h) L2) as O2. pose proof (prank_ok100 l3 (c_index c) g L3) as O3.
    unfold crsi_value in N. destruct (Rrsi l1 h) as [a|] eqn:E1; [|discriminate]. destruct (Rrsi l2 _) as [b|] eqn:E2; [|discriminate].
    destruct (prank_out l3 (c_index c) (lift g)) as [k|] eqn:E3; [|discriminate]. apply some_inj in N. subst o.
    assert (LH : (2 <= length h)%nat).
    { assert (D : is_some (Rrsi l1 h) = true) by (rewrite E1; reflexivity). rewrite Rrsi_defined in D by lia. apply Nat.ltb_lt in D. lia. }
    assert (O2' : ok100 False (Some b)) by (eapply ok100_weaken; [|exact O2]; intros NM; apply NM, streaks_moved; assumption).
    destruct b as [b| | |]; try contradiction. destruct k as [k| | |]; try contradiction. cbn [ok100] in O2', O3.
    destruct a as [a| | |]; try contradiction; cbn [ok100] in O1.
    - rewrite !fin_add, fin_Z, fin_div by lra.
      assert (B : exists r, Fin ((a + b + k) / 3) = Fin r /\ 0 <= r <= 100) by (eexists; split; [reflexivity|lra]). split; intros; auto.
    - split; [intros M; contradiction|]. intros _. left. reflexivity.
  Qed.
End C61x.
Example C61_moved_ex : moved 3 [10; 10; 11; 12]%R.
Proof. unfold moved. cbn. right. left. lra. Qed.
Example C61_streak_ex : gives same_opt (Ok (streaks (qs [5; 6; 7; 7; 6; 5; 8]%Z))) (qs [-1; 1; 2; 0; -1; -2; 1]%Z) = true.
Proof. vm_compute. reflexivity. Qed.
Example C61_ex : warmed (map b_close bars6) /\
  match run_new (crsi_new (src_box SClose) 3 2 2) crsi_step ctx6 (ticks 6) with
  | Ok os => map (fun o => match o with Some v => fltb (q 0) v && fltb v (q 100) | None => false end) os
  | Panic => [] end = [false; false; false; true; true; true].
Proof. split; [exists 0, (map (fun b => match b_close b with Some v => v | None => q 0 end) bars6); reflexivity|vm_compute; reflexivity]. Qed.

(** ** C62 *)
Section C62.
  Context {F : Type} {NF : Num F}.
  Local Open Scope num_scope.
  Theorem C62_stoch_rsi l1 l2 k d (c : ctx F) src xs : (2 <= l1)%nat -> (1 <= l2)%nat -> (1 <= k)%nat -> (1 <= d)%nat -> feeds c src xs -> warmed xs ->
    exists rs ss ks ds os,
      run_new (rsi_new l1) rsi_step c xs = Ok rs /\
      run_new (stoch_new l2) stoch_step c (map (fun r => (r, r, r)) rs) = Ok ss /\
      run_new (sma_new k) sma_step c ss = Ok ks /\ run_new (sma_new d) sma_step c ks = Ok ds /\
      run_new (srsi_new src l1 l2 k d) srsi_step c (ticks (length xs)) = Ok os /\ os = combine ks ds.
  Proof.
    intros L1 L2 L3 L4 H W. rewrite (srsi_run l1 l2 k d c src xs L1 L2 L3 L4 H W).
    rewrite (makes_run _ _ _ _ c _ (rsi_makes l1 L1) W).
    eexists. eexists. eexists. eexists. eexists. split; [reflexivity|]. rewrite each_prefix_map, (makes_run _ _ _ _ c _ (stoch_makes l2 L2) I), each_prefix_each_prefix.
    split; [reflexivity|]. rewrite (makes_run _ _ _ _ c _ (sma_makes k L3) I), each_prefix_each_prefix. split; [reflexivity|].
    rewrite (makes_run _ _ _ _ c _ (sma_makes d L4) I), each_prefix_each_prefix. split; [reflexivity|]. split; [reflexivity|].
    rewrite combine_each. reflexivity.
  Qed.
End C62.
Section C62x.
  Local Open Scope R_scope.
  (** Both lines lie between 0 and 100, provided one of the first changes of
      the price that enter the Rsi is not zero (otherwise they may be NaN). *)
  Theorem C62_range l1 l2 k d (c : ctx xr) src vs os i o : (2 <= l1)%nat -> (1 <= l2)%nat -> (1 <= k)%nat -> (1 <= d)%nat -> feeds c src (full vs) ->
    run_new (srsi_new src l1 l2 k d) srsi_step c (ticks (length vs)) = Ok os -> nth_error os i = Some o ->
    ok100 (~ moved l1 vs) (fst o) /\ ok100 (~ moved l1 vs) (snd o).
  Proof.
    intros L1 L2 L3 L4 H E N.
    pose proof (srsi_run l1 l2 k d c src _ L1 L2 L3 L4 H ltac:(rewrite full_map; apply warmed_map_Some)) as R. unfold full in R at 1. rewrite map_length in R.
    rewrite E in R. injection R as R. rewrite R in N. apply nth_each in N. destruct N as [Hi ->].
    assert (Hi' : (i < length vs)%nat) by (unfold full in Hi; rewrite map_length in Hi; exact Hi).
    assert (RS : forall j, ok100 (~ moved l1 vs) (rsi_out l1 (firstn (S j) (full vs)))).
    { intros j. rewrite full_firstn, (rsi_full l1 _ L1). apply Rrsi_ok_prefix. exact L1. }
    assert (PF : forall j p, In p (prefixes (firstn (S j) (full vs))) -> exists m, p = firstn (S m) (full vs)).
    { intros j p I. apply in_prefixes in I. destruct I as (m & _ & ->). rewrite firstn_firstn. exists (Nat.min m j). f_equal. }
    assert (NE : forall j, firstn (S j) (full vs) <> []) by (intros j; destruct vs; [cbn in Hi'; lia|discriminate]).
    assert (NP : forall (f : list (option xr) -> option xr) j, each_prefix f (firstn (S j) (full vs)) <> []).
    { intros f j E0. apply (f_equal (@length _)) in E0. rewrite length_each_prefix in E0. specialize (NE j). destruct (firstn (S j) (full vs)); [congruence|discriminate]. }
    assert (SS : forall j, ok100 (~ moved l1 vs) (srsi_stoch l1 l2 (c_index c) (firstn (S j) (full vs)))).
    { intros j. unfold srsi_stoch.
      replace (each_prefix (fun p => (rsi_out l1 p, rsi_out l1 p, rsi_out l1 p)) (firstn (S j) (full vs))) with (map thrice (each_prefix (rsi_out l1) (firstn (S j) (full vs)))) by apply each_prefix_map.
      apply stoch_ok100; [exact L2|]. apply Forall_forall. intros x I. unfold each_prefix in I. apply in_map_iff in I. destruct I as (p & <- & I).
      destruct (PF j p I) as [m ->]. apply RS. }
    assert (KS : forall j, ok100 (~ moved l1 vs) (srsi_k l1 l2 k (c_index c) (firstn (S j) (full vs)))).
    { intros j. unfold srsi_k. apply sma_ok100; [exact L3|apply NP|]. apply Forall_forall. intros x I. unfold each_prefix in I. apply in_map_iff in I. destruct I as (p & <- & I).
      destruct (PF j p I) as [m ->]. apply SS. }
    unfold srsi_out. cbn [fst snd]. split; [apply KS|].
    apply sma_ok100; [exact L4|apply NP|]. apply Forall_forall. intros x I. unfold each_prefix in I. apply in_map_iff in I. destruct I as (p & <- & I).
    destruct (PF i p I) as [m ->]. apply KS.
  Qed.
End C62x.
Example C62_ex :
  match run_new (srsi_new (src_box SClose) 2 2 1 2) srsi_step ctx6 (ticks 6) with
  | Ok os => map (fun o => (match fst o with Some v => fleb (q 0) v && fleb v (q 100) | None => false end, is_some (snd o))) os
  | Panic => [] end = [(false, false); (false, false); (false, false); (true, false); (true, true); (true, true)].
Proof. vm_compute. reflexivity. Qed.
(** The proviso matters: after a flat start the smoothed lines are NaN for
    good. *)
Definition flat_start : list (bar f64) := map qbar
  [(5, 5, 5, 5, 1); (5, 5, 5, 5, 1); (5, 5, 5, 5, 1); (5, 5, 5, 5, 1); (5, 6, 5, 6, 1); (6, 7, 6, 7, 1); (6, 6, 6, 6, 1); (6, 8, 6, 8, 1); (8, 8, 7, 7, 1); (7, 9, 7, 9, 1)]%Z.
Example C62_nan_for_good :
  match ctx_over flat_start with
  | Ok c => match run_new (srsi_new (src_box SClose) 2 2 2 2) srsi_step c (ticks 10) with
            | Ok os => map (fun o => nan_at (fst o)) os
            | Panic => [] end
  | Panic => [] end =
  [None; None; None; Some true; Some true; Some true; Some true; Some true; Some true; Some true].
Proof. vm_compute. reflexivity. Qed.
