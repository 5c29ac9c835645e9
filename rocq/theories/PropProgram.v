(** * PropProgram: C93 (the example program), C94 (reading a data frame). *)
From Verif Require Export MProgram PContent3 PropContent1 PropContent4 PropMetrics2.
From Coq Require Import Strings.String Lists.List.
Import ListNotations.
Local Open Scope string_scope.

(** ** C94 *)
Section C94.
  Context {F : Type} {NF : Num F}.
  Variable secs : F -> res Z.
  Open Scope list_scope.
  (** The cell as the components see it: missing or NaN is missing. *)
  Definition visible (v : option F) : option F :=
    match v with Some x => if fisnan x then None else Some x | None => None end.
  (** A time cell: missing or NaN is missing, otherwise converted. *)
  Definition dated_as (v : option F) (t : option Z) : Prop :=
    match visible v with Some x => exists n, secs x = Ok n /\ t = Some n | None => t = None end.
  Lemma durations col : (exists ts, series_to_duration secs col = Ok ts) <-> Forall (fun v => forall x, visible v = Some x -> secs x <> Panic) col.
  Proof.
    induction col as [|v col IH]; [split; [constructor|eexists; reflexivity]|]. cbn [series_to_duration]. rewrite Forall_cons_iff, <- IH. clear IH.
    assert (G : forall o : option Z, (exists ts, (ds <- series_to_duration secs col ;; Ok (o :: ds)) = Ok ts) <-> exists ts, series_to_duration secs col = Ok ts).
    { intros o. destruct (series_to_duration secs col); cbn [rbind]; split; intros [ts H]; try discriminate; eauto. }
    unfold visible. destruct v as [x|]; [destruct (fisnan x)|].
    - cbn [rbind]. rewrite G. split; [intros H; split; [discriminate|exact H]|intros [_ H]; exact H].
    - destruct (secs x) eqn:E; cbn [rbind].
      + rewrite G. split; [intros H; split; [intros y Y; injection Y as <-; rewrite E; discriminate|exact H]|intros [_ H]; exact H].
      + split; [intros [? H]; discriminate|]. intros [H _]. destruct (H x eq_refl E).
    - cbn [rbind]. rewrite G. split; [intros H; split; [discriminate|exact H]|intros [_ H]; exact H].
  Qed.
  Lemma durations_are col ts : series_to_duration secs col = Ok ts -> Forall2 dated_as col ts.
  Proof.
    revert ts. induction col as [|v col IH]; intros ts; cbn [series_to_duration]; [intros H; injection H as <-; constructor|].
    destruct (match v with Some x => if fisnan x then Ok None else n <- secs x ;; Ok (Some n) | None => Ok None end) as [d|] eqn:D; [|discriminate].
    cbn [rbind]. destruct (series_to_duration secs col) as [ds|]; [|discriminate]. cbn [rbind]. intros H; injection H as <-. constructor; [|auto].
    unfold dated_as, visible. destruct v as [x|]; [destruct (fisnan x)|]; try (injection D as <-; reflexivity).
    destruct (secs x) as [n|]; [|discriminate]. injection D as <-. exists n. split; reflexivity.
  Qed.
  (** The first column with that name. *)
  Definition column_of (df : frame (F:=F)) (name : string) (col : list (option F)) : Prop :=
    exists before later, df = before ++ (name, col) :: later /\ ~ In name (map fst before).
  Lemma df_column_spec (df : frame (F:=F)) name col : df_column df name = Ok col <-> column_of df name col.
  Proof.
    unfold column_of. induction df as [|[n c0] df IH]; cbn [df_column].
    - split; [discriminate|]. intros (b & l & H & _). destruct b; discriminate.
    - destruct (String.eqb_spec n name) as [->|N].
      + split.
        * intros H; injection H as ->. exists [], df. split; [reflexivity|intros []].
        * intros ([|[n' c'] b] & l & H & NI); cbn [app] in H; injection H.
          { intros _ ->. reflexivity. } intros _ _ ->. destruct NI. left. reflexivity.
      + rewrite IH. split.
        * intros (b & l & -> & NI). exists ((n, c0) :: b), l. split; [reflexivity|]. cbn. tauto.
        * intros ([|[n' c'] b] & l & H & NI); cbn [app] in H; injection H.
          { intros _ _ E. congruence. } intros H1 _ ->. exists b, l. split; [exact H1|]. intros I. apply NI. right. exact I.
  Qed.
  Lemma accepted_raw (df : frame (F:=F)) : (exists d, from_df secs df = Ok d) <->
    (forall name, In name ["open"; "high"; "low"; "close"; "volume"; "time"] -> exists col, df_column df name = Ok col) /\
    (forall col, df_column df "close" = Ok col -> col <> []) /\
    (forall col v x, df_column df "time" = Ok col -> In v col -> visible v = Some x -> secs x <> Panic).
  Proof.
    unfold from_df. split.
    - intros [d H].
      destruct (df_column df "open") as [c1|] eqn:E1; [|discriminate]. destruct (df_column df "high") as [c2|] eqn:E2; [|discriminate].
      destruct (df_column df "low") as [c3|] eqn:E3; [|discriminate]. destruct (df_column df "close") as [c4|] eqn:E4; [|discriminate].
      destruct (df_column df "volume") as [c5|] eqn:E5; [|discriminate]. destruct (df_column df "time") as [c6|] eqn:E6; [|discriminate].
      cbn [rbind] in H. destruct (series_to_duration secs c6) as [ts|] eqn:T; [|discriminate]. cbn [rbind] in H.
      split; [|split].
      + intros name I. cbn in I. repeat (destruct I as [<-|I]; [eauto|]). contradiction.
      + intros col E. injection E as <-. intros ->. discriminate H.
      + intros col v x E I. injection E as <-. assert (D : exists ts, series_to_duration secs c6 = Ok ts) by eauto.
        apply durations in D. rewrite Forall_forall in D. apply D. exact I.
    - intros (H1 & H2 & H3).
      destruct (H1 "open") as [c1 E1]; [cbn; tauto|]. destruct (H1 "high") as [c2 E2]; [cbn; tauto|]. destruct (H1 "low") as [c3 E3]; [cbn; tauto|].
      destruct (H1 "close") as [c4 E4]; [cbn; tauto|]. destruct (H1 "volume") as [c5 E5]; [cbn; tauto|]. destruct (H1 "time") as [c6 E6]; [cbn; tauto|].
      rewrite E1, E2, E3, E4, E5, E6. cbn [rbind].
      assert (D : exists ts, series_to_duration secs c6 = Ok ts).
      { apply durations. apply Forall_forall. intros v I x. apply (H3 _ _ _ E6 I). }
      destruct D as [ts ->]. cbn [rbind]. unfold provider_new, usub, series_to_f64. rewrite map_length.
      specialize (H2 _ E4). destruct c4; [congruence|]. cbn. eauto.
  Qed.
  (** A frame is accepted exactly when it has the six columns, at least one
      close, and convertible times. *)
  Theorem C94_accepted (df : frame (F:=F)) : (exists d, from_df secs df = Ok d) <->
    (forall name, In name ["open"; "high"; "low"; "close"; "volume"; "time"] -> exists col, column_of df name col) /\
    (forall col, column_of df "close" col -> col <> []) /\
    (forall col v x, column_of df "time" col -> In v col -> visible v = Some x -> secs x <> Panic).
  Proof.
    rewrite accepted_raw. split; intros (H1 & H2 & H3); (split; [|split]).
    - intros name I. destruct (H1 name I) as [col C]. exists col. apply df_column_spec. exact C.
    - intros col C. apply H2. apply df_column_spec. exact C.
    - intros col v x C. apply H3. apply df_column_spec. exact C.
    - intros name I. destruct (H1 name I) as [col C]. exists col. apply df_column_spec. exact C.
    - intros col C. apply H2. apply df_column_spec. exact C.
    - intros col v x C. apply H3. apply df_column_spec. exact C.
  Qed.
  (** Every cell ends up in its own column, NaN as missing; the bars are those
      of the close column. *)
  Theorem C94_columns (df : frame (F:=F)) d : from_df secs df = Ok d ->
    (forall name col, In (name, col) [("open", p_open d); ("high", p_high d); ("low", p_low d); ("close", p_close d); ("volume", p_volume d)] ->
       exists raw, column_of df name raw /\ col = map visible raw) /\
    (exists raw, column_of df "time" raw /\ Forall2 dated_as raw (p_time d)) /\
    p_start d = 0%nat /\ (p_end d + 1)%nat = length (p_close d).
  Proof.
    unfold from_df.
    destruct (df_column df "open") as [c1|] eqn:E1; [|discriminate]. destruct (df_column df "high") as [c2|] eqn:E2; [|discriminate].
    destruct (df_column df "low") as [c3|] eqn:E3; [|discriminate]. destruct (df_column df "close") as [c4|] eqn:E4; [|discriminate].
    destruct (df_column df "volume") as [c5|] eqn:E5; [|discriminate]. destruct (df_column df "time") as [c6|] eqn:E6; [|discriminate].
    cbn [rbind]. destruct (series_to_duration secs c6) as [ts|] eqn:T; [|discriminate]. cbn [rbind].
    unfold provider_new, usub. unfold series_to_f64 at 1. rewrite map_length. destruct (Nat.leb_spec 1 (length c4)); [|discriminate]. cbn [rbind].
    intros E; injection E as <-. cbn [p_open p_high p_low p_close p_volume p_time p_start p_end].
    split; [|split; [exists c6; split; [apply df_column_spec; exact E6|apply durations_are; exact T]|split; [reflexivity|unfold series_to_f64; rewrite map_length; lia]]].
    intros name col I. cbn in I. repeat (destruct I as [I|I]; [injection I as <- <-; eexists; split; [apply df_column_spec; eassumption|reflexivity]|]). contradiction.
  Qed.
End C94.
(** Only the extensions "parquet" and "csv" are accepted. *)
Theorem C94_extension ext f : df_format ext = Ok f <-> (ext = Some "parquet" /\ f = Parquet) \/ (ext = Some "csv" /\ f = Csv).
Proof.
  unfold df_format. destruct ext as [e|]; [|split; [discriminate|intros [[H _]|[H _]]; discriminate]].
  destruct (String.eqb_spec e "parquet") as [->|N1]; [split; [intros H; injection H as <-; auto|intros [[_ ->]|[H _]]; [reflexivity|discriminate]]|].
  destruct (String.eqb_spec e "csv") as [->|N2]; [split; [intros H; injection H as <-; auto|intros [[H _]|[_ ->]]; [discriminate|reflexivity]]|].
  split; [discriminate|]. intros [[H _]|[H _]]; injection H as ->; congruence.
Qed.

(** ** C93 *)
Section C93.
  Context {F : Type} {NF : Num F}.
  Variable secs : F -> res Z.
  Open Scope list_scope.
  Lemma app_run n : forall (c : ctx F) r g s m r' vs g' sigs s' m' os,
    run_st rsii_step c r (ticks n) = Ok (r', vs) -> run_st thr_step c g vs = Ok (g', sigs) ->
    run_st (metered tv_step) c (s, m) sigs = Ok ((s', m'), os) ->
    run_st app_step c (mkApp r g s m) (seq (c_index c) n) = Ok (mkApp r' g' s' m', repeat tt n).
  Proof.
    induction n as [|n IH]; intros c r g s m r' vs g' sigs s' m' os R G M.
    - cbn in R. injection R as <- <-. cbn in G. injection G as <- <-. cbn in M. injection M as <- <- <-. reflexivity.
    - cbn [ticks repeat run_st] in R. destruct (rsii_step c r tt) as [[r1 v]|] eqn:E1; [|discriminate]. cbn [rbind] in R.
      fold (ticks n) in R. destruct (run_st rsii_step (ctx_advance c) r1 (ticks n)) as [[r2 vs2]|] eqn:R1; [|discriminate]. cbn [rbind] in R. injection R as <- <-.
      cbn [run_st] in G. destruct (thr_step c g v) as [[g1 x]|] eqn:E2; [|discriminate]. cbn [rbind] in G.
      destruct (run_st thr_step (ctx_advance c) g1 vs2) as [[g2 sigs2]|] eqn:G1; [|discriminate]. cbn [rbind] in G. injection G as <- <-.
      cbn [run_st] in M. unfold metered at 1 in M. cbn [fst snd] in M.
      destruct (strategy_step c s x) as [[s1 []]|] eqn:E3; [|discriminate]. cbn [rbind] in M.
      destruct (tv_step c m s1) as [[m1 []]|] eqn:E4; [|discriminate]. cbn [rbind] in M.
      destruct (run_st (metered tv_step) (ctx_advance c) (s1, m1) sigs2) as [[[s2 m2] os2]|] eqn:M1; [|discriminate]. cbn [rbind] in M. injection M as <- <- <-.
      cbn [seq run_st]. unfold app_step at 1. replace (ctx_set_index c (c_index c)) with c by (destruct c; reflexivity).
      cbn [ap_rsi ap_signal ap_strategy ap_metrics]. rewrite E1. cbn [rbind]. rewrite E2. cbn [rbind]. rewrite E3. cbn [rbind]. rewrite E4. cbn [rbind].
      change (S (c_index c)) with (c_index (ctx_advance c)). erewrite IH by eassumption. reflexivity.
  Qed.
  Lemma metered_final : forall os sigs (c : ctx F) s m s1 m1 o,
    run_st (metered tv_step) c (s, m) sigs = Ok ((s1, m1), os ++ [o]) -> o = (s1, m1).
  Proof.
    induction os as [|o' os IH]; intros sigs c s m s1 m1 o M1; (destruct sigs as [|x sigs]; [discriminate|]);
      cbn [run_st] in M1; unfold metered at 1 in M1; cbn [fst snd] in M1;
      (destruct (strategy_step c s x) as [[s2 []]|]; [|discriminate]); cbn [rbind] in M1; (destruct (tv_step c m s2) as [[m2 []]|]; [|discriminate]); cbn [rbind] in M1;
      (destruct (run_st _ _ _ sigs) as [[[s3 m3] os3]|] eqn:E; [|discriminate]); cbn [rbind] in M1; injection M1 as <- <- <- ->.
    - destruct sigs; [cbn in E; injection E as <- <-; reflexivity|]. cbn [run_st] in E. unfold metered at 1 in E. cbn [fst snd] in E.
      destruct (strategy_step _ s2 _) as [[s4 []]|]; [|discriminate]. cbn [rbind] in E. destruct (tv_step _ m2 s4) as [[m4 []]|]; [|discriminate]. cbn [rbind] in E.
      destruct (run_st _ _ _ sigs) as [[? ?]|]; discriminate.
    - apply (IH _ _ _ _ _ _ _ E).
  Qed.
  (** The frame holds the bars [bs]: four prices each, none of them NaN. *)
  Record df_holds (df : frame (F:=F)) (bs : list (bar F)) : Prop := {
    dh_open : column_of df "open" (map b_open bs);
    dh_high : column_of df "high" (map b_high bs);
    dh_low : column_of df "low" (map b_low bs);
    dh_close : column_of df "close" (map b_close bs);
    dh_volume : column_of df "volume" (map b_volume bs);
    dh_time : exists col, column_of df "time" col /\ forall v x, In v col -> visible v = Some x -> secs x <> Panic;
    dh_prices : Forall (fun b => forall v, In v [b_open b; b_high b; b_low b; b_close b] -> exists x, v = Some x /\ fisnan x = false) bs;
    dh_volumes : Forall (fun b => forall x, b_volume b = Some x -> fisnan x = false) bs }.
  Lemma visible_bars (k : bar F -> option F) bs : Forall (fun b => forall x, k b = Some x -> fisnan x = false) bs ->
    series_to_f64 (map k bs) = map k bs.
  Proof.
    intros H. unfold series_to_f64. rewrite map_map. apply map_ext_in. intros b I. rewrite Forall_forall in H. specialize (H b I).
    unfold cell_to_f64. destruct (k b) as [x|]; [rewrite (H x eq_refl)|]; reflexivity.
  Qed.
  (** The defaults (orders filled at the next open, always in the market, one
      share) with a capital of 1000, and a risk-free rate of 0. *)
  Theorem C93_example df bs fuel : df_holds df bs -> bs <> [] -> (length bs < fuel)%nat ->
    let cfg := mkSConfig false true (fZ 1000) false in
    exists a d sigs os,
      example_main secs fuel df = Some (Ok a) /\
      holds d bs /\
      threshold_signals (fZ 50) (fZ 50) (each_prefix (rsi_out 14) (map b_close bs)) sigs /\
      s_trades (ap_strategy a) = map as_trade (book cfg (orders cfg d 0 sigs)) /\
      observed tv_step cfg (tv_new (strategy_new cfg) (fZ 0)) (mkCtx d 0 (length bs - 1) (length bs) 0 true) sigs os /\
      newest os = Some (ap_strategy a, ap_metrics a) /\ length os = length bs.
  Proof.
    cbn zeta. change (mkSConfig false true (fZ 1000) false) with (example_config (F:=F)).
    intros [H1 H2 H3 H4 H5 (tc & H6 & H6') H7 H8] NE FU.
    apply df_column_spec in H1, H2, H3, H4, H5, H6.
    assert (V : forall k, In k [b_open; b_high; b_low; b_close] -> Forall (fun b : bar F => forall x, k b = Some x -> fisnan x = false) bs).
    { intros k I. rewrite Forall_forall in H7 |- *. intros b Ib x E. specialize (H7 b Ib (k b)). destruct H7 as (y & E' & Y); [|congruence].
      cbn in I. repeat (destruct I as [<-|I]; [cbn; tauto|]). contradiction. }
    assert (D : exists ts, series_to_duration secs tc = Ok ts).
    { apply durations. apply Forall_forall. intros v I x. apply (H6' _ _ I). }
    destruct D as [ts D].
    set (d := mkProvider (map b_open bs) (map b_high bs) (map b_low bs) (map b_close bs) (map b_volume bs) ts 0 (length bs - 1)).
    assert (L : (1 <= length bs)%nat) by (destruct bs; [congruence|cbn; lia]).
    assert (FD : from_df secs df = Ok d).
    { unfold from_df. rewrite H1, H2, H3, H4, H5, H6. cbn [rbind]. rewrite D. cbn [rbind].
      rewrite !visible_bars by (first [exact H8|apply V; cbn; tauto]). unfold provider_new, usub. rewrite map_length.
      destruct (Nat.leb_spec 1 (length bs)); [reflexivity|lia]. }
    assert (CN : ctx_new d = Ok (mkCtx d 0 (length bs - 1) (length bs) 0 false)).
    { unfold ctx_new, usub. cbn [d p_end p_start Nat.leb rbind]. rewrite Nat.sub_0_r. replace (length bs - 1 + 1)%nat with (length bs) by lia. reflexivity. }
    set (c := mkCtx d 0 (length bs - 1) (length bs) 0 true).
    assert (FO : fresh_over c bs) by (split; [repeat split|reflexivity]).
    assert (FE : feeds c (src_box SClose) (map b_close bs)).
    { apply (src_feeds SClose c bs FO). apply Forall_forall. intros; exact I. }
    assert (WA : warmed (map b_close bs)).
    { assert (EX : exists vs, map b_close bs = map Some vs).
      { clear -H7. induction H7 as [|b bs Hb _ [vs IH]]; [exists []; reflexivity|].
        destruct (Hb (b_close b)) as (x & E & _); [cbn; tauto|]. exists (x :: vs). cbn. rewrite E, IH. reflexivity. }
      destruct EX as [vs ->]. apply warmed_map_Some. }
    pose proof (rsii_run 14 c _ _ ltac:(lia) FE WA) as RR. rewrite map_length in RR.
    set (vs := each_prefix (rsi_out 14) (map b_close bs)) in *.
    unfold run_new in RR. destruct (rsii_new (src_box SClose) 14) as [r0|] eqn:RN; [|discriminate]. cbn [rbind] in RR.
    unfold run in RR. destruct (run_st rsii_step c r0 (ticks (length bs))) as [[r1 vs1]|] eqn:R1; [|discriminate]. cbn in RR. injection RR as ->.
    destruct (C49_oscillator_strategies c (fZ 50) (fZ 50) vs) as (sigs & RG & TS).
    unfold run in RG. destruct (run_st thr_step c _ vs) as [[g1 sg]|] eqn:G1; [|discriminate]. cbn in RG. injection RG as ->.
    assert (LS : length sigs = length bs).
    { destruct TS as [TL _]. rewrite TL. unfold vs. rewrite length_each_prefix, map_length. reflexivity. }
    assert (CO : complete c (length sigs)).
    { rewrite LS. intros k Hk col I.
      assert (Hb : exists b, nth_error bs k = Some b) by (destruct (nth_error bs k) eqn:E; [eauto|apply nth_error_None in E; lia]).
      destruct Hb as [b Hb]. rewrite Forall_forall in H7. pose proof (H7 b (nth_error_In _ _ Hb)) as PB.
      cbn in I. repeat (destruct I as [<-|I]; [cbn [c d c_index p_open p_high p_low p_close Nat.add]; rewrite nth_error_map, Hb; cbn [option_map];
        match goal with |- exists x, Some ?v = _ => destruct (PB v) as (x & -> & _); [cbn; tauto|eauto] end|]). contradiction. }
    destruct (C89_tradingview example_config (fZ 0) c sigs CO) as (os & OB & LO).
    pose proof OB as OB'. unfold observed, run in OB'. destruct (run_st (metered tv_step) c _ sigs) as [[[s1 m1] os1]|] eqn:M1; [|discriminate].
    cbn in OB'. injection OB' as ->.
    pose proof (app_run _ _ _ _ _ _ _ _ _ _ _ _ _ R1 G1 M1) as AR.
    exists (mkApp r1 g1 s1 m1), d, sigs, os.
    assert (NW : newest os = Some (s1, m1)).
    { destruct os as [|o os _] using rev_ind; [cbn in LO; lia|]. rewrite newest_snoc. f_equal.
      apply (metered_final _ _ _ _ _ _ _ _ M1). }
    split; [|split; [exact (proj1 FO)|split; [exact TS|split; [|split; [exact OB|split; [exact NW|congruence]]]]]].
    - unfold example_main. rewrite FD. cbn [rbind]. rewrite CN. cbn [rbind].
      unfold app_new, rsii_default. rewrite RN. cbn [rbind].
      rewrite (loop_fresh app_step (fun i => i) d) by (first [exact CN|cbn; lia]).
      change (ctx_set_running _ true) with c. rewrite map_id. cbn [d p_start p_end]. replace (length bs - 1 - 0 + 1)%nat with (length bs) by lia.
      change (seq 0 (length bs)) with (seq (c_index c) (length bs)). rewrite AR. reflexivity.
    - destruct (metered_ind _ _ _ _ _ _ (fun _ _ _ => True) OB I) as (s & t & _ & RS & _ & [Z|Z]); [auto|subst; discriminate NW|].
      rewrite NW in Z. injection Z as <- <-. apply (C29_orders example_config c). eexists. exact RS.
  Qed.
End C93.

(** In exact arithmetic the RSI values are Wilder's formula ([SpecReal.Rrsi]). *)
Theorem C93_rsi_exact (xs : list R) : each_prefix (rsi_out 14) (full xs) = each_prefix (Rrsi 14) xs.
Proof.
  induction xs as [|x xs IH] using rev_ind; [reflexivity|]. unfold full in *. rewrite map_app in *. cbn [map]. rewrite !each_prefix_snoc, IH. f_equal. f_equal.
  pose proof (rsi_full 14 (xs ++ [x]) ltac:(lia)) as E. unfold full in E. rewrite map_app in E. exact E.
Qed.

(** ** A concrete frame: 24 daily bars, rising, falling, rising. *)
Definition closes93 : list Z := [10; 11; 12; 13; 14; 15; 16; 17; 18; 19; 20; 21; 22; 23; 22; 20; 17; 13; 8; 12; 18; 25; 30; 31]%Z.
Definition df93 : frame (F:=f64) :=
  let col f := map (fun z => Some (q (f z))) closes93 in
  [("time", map (fun z => Some (q (1600000000 + z * 86400))) closes93); ("open", col (fun z => z)); ("high", col (fun z => z + 1)%Z);
   ("low", col (fun z => z - 1)%Z); ("close", col (fun z => z)); ("volume", map (fun _ => None) closes93)]%list.
Definition secs93 (x : f64) : res Z := if fltb x (q 0) then Panic else Ok 0%Z.
Definition bars93 : list (bar f64) :=
  map (fun z => mkBar (Some (q z)) (Some (q (z + 1))) (Some (q (z - 1))) (Some (q z)) None) closes93.
Example C93_holds : df_holds secs93 df93 bars93.
Proof.
  split; try (apply df_column_spec; reflexivity).
  - exists (map (fun z => Some (q (1600000000 + z * 86400))) closes93). split; [apply df_column_spec; reflexivity|].
    assert (A : forallb (fun v => match visible v with Some x => negb (fltb x (q 0)) | None => true end)
      (map (fun z => Some (q (1600000000 + z * 86400))) closes93) = true) by (vm_compute; reflexivity).
    intros v x I V. rewrite forallb_forall in A. specialize (A v I). rewrite V in A. unfold secs93. apply negb_true_iff in A. rewrite A. discriminate.
  - assert (A : forallb (fun b => forallb (fun v => match v with Some x => negb (fisnan x) | None => false end) [b_open b; b_high b; b_low b; b_close b]) bars93 = true)
      by (vm_compute; reflexivity).
    apply Forall_forall. intros b I v V. rewrite forallb_forall in A. specialize (A b I). rewrite forallb_forall in A. specialize (A v V).
    destruct v as [x|]; [|discriminate]. exists x. split; [reflexivity|]. apply negb_true_iff. exact A.
  - apply Forall_forall. intros b I x E. unfold bars93 in I. apply in_map_iff in I. destruct I as (z & <- & _). discriminate.
Qed.
Definition view93 (r : option (res (example_app (F:=f64)))) : option (list (direction * option nat * option nat) * nat) :=
  match r with
  | Some (Ok a) => Some (map (fun t => (t_dir t, t_entry_tick t, t_exit_tick t)) (s_trades (ap_strategy a)), tv_losing (tv_data (ap_metrics a)))
  | _ => None
  end.
(** Short at the open after the RSI fell below 50, reversed after it rose again. *)
Example C93_ex : view93 (example_main secs93 25 df93) = Some ([(Short, Some 19, Some 20); (Long, Some 20, None)]%nat, 1%nat).
Proof. vm_compute. reflexivity. Qed.
Example C94_ex : rmap p_end (from_df secs93 df93) = Ok 23%nat /\ from_df secs93 (tl df93) = Panic.
Proof. split; vm_compute; reflexivity. Qed.
