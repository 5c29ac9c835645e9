(** * PTa2: Ema, Rma, Dev, Stdev, extrema, Prank. *)
From Verif Require Export PTa1.

Section Ema.
  Context {F : Type} {NF : Num F}.
  Local Open Scope num_scope.
  Local Notation hist := (list (option F)).

  (** The recurrence: [m] is the simple average offered as seed at that bar. *)
  Fixpoint ema_rec (alpha : F) (prev : option F) (l : list (option F * option F))
      : res (list (option F)) :=
    match l with
    | [] => Ok []
    | (x, m) :: t =>
        match prev with
        | None => os <- ema_rec alpha m t ;; Ok (m :: os)
        | Some p =>
            v <- unwrap x ;;
            let e := alpha * v + (fZ 1 - alpha) * p in
            os <- ema_rec alpha (Some e) t ;; Ok (Some e :: os)
        end
    end.

  Lemma ema_step_seeded len c i s x : 2 <= len -> ema_len s = len ->
    (len <= i + 2)%nat -> c_index c = i ->
    ema_step c s x =
    match ema_prev s with
    | Some p =>
        v <- unwrap x ;;
        let e := ema_alpha s * v + (fZ 1 - ema_alpha s) * p in
        Ok (mkEma (ema_alpha s) (ema_len s) (ema_sma s) (Some e), Some e)
    | None =>
        '(sma, m) <- sma_step c (ema_sma s) x ;;
        Ok (mkEma (ema_alpha s) (ema_len s) sma m, m)
    end.
  Proof.
    intros H E Hi Hc. unfold ema_step. rewrite E.
    destruct (Nat.eqb_spec len 1); [lia|].
    unfold usub. destruct (Nat.leb_spec 1 len); [|lia]. cbn [rbind].
    unfold at_length, usub. destruct (Nat.leb_spec 1 (len - 1)); [|lia]. cbn [rbind].
    destruct (Nat.leb_spec (len - 1 - 1) (c_index c)); [|lia]. cbn [negb rbind]. reflexivity.
  Qed.

  Lemma ema_step_early len c s x : 2 <= len -> ema_len s = len ->
    (c_index c + 2 < len)%nat ->
    ema_step c s x =
    ('(sma, _) <- sma_step c (ema_sma s) x ;;
     Ok (mkEma (ema_alpha s) (ema_len s) sma (ema_prev s), None)).
  Proof.
    intros H E Hi. unfold ema_step. rewrite E.
    destruct (Nat.eqb_spec len 1); [lia|].
    unfold usub. destruct (Nat.leb_spec 1 len); [|lia]. cbn [rbind].
    unfold at_length, usub. destruct (Nat.leb_spec 1 (len - 1)); [|lia]. cbn [rbind].
    destruct (Nat.leb_spec (len - 1 - 1) (c_index c)); [lia|]. cbn [negb rbind]. reflexivity.
  Qed.

  Lemma ema_run_seeded len xs : forall c s p ms, 2 <= len -> ema_len s = len ->
    (len <= c_index c + 2)%nat -> ema_prev s = Some p -> length ms = length xs ->
    run ema_step c s xs = ema_rec (ema_alpha s) (Some p) (combine xs ms).
  Proof.
    induction xs as [|x xs IH]; intros c s p ms H E Hi Hp L; [reflexivity|].
    destruct ms as [|m ms]; [discriminate|]. cbn [combine ema_rec].
    rewrite run_cons, ema_step_seeded with (len := len) (i := c_index c) by (auto; lia).
    rewrite Hp. destruct x as [v|]; [|reflexivity]. cbn [unwrap rbind].
    rewrite IH with (p := ema_alpha s * v + (fZ 1 - ema_alpha s) * p) (ms := ms);
      [reflexivity|exact H|exact E| |reflexivity|cbn in L; lia].
    cbn; lia.
  Qed.

  Lemma sma_out_short len (h : hist) : 2 <= len -> (length h < len)%nat -> sma_out len h = None.
  Proof.
    intros H L. unfold sma_out. destruct (Nat.eqb_spec len 1); [lia|].
    unfold window. destruct (Nat.leb_spec len (length h)); [lia|reflexivity].
  Qed.

  Lemma ema_run_seeding len c xs : forall h s, 2 <= len -> ema_len s = len ->
    ema_prev s = None -> sma_inv len (c_index c) h (ema_sma s) ->
    run ema_step (ctx_at c (length h)) s xs =
    ema_rec (ema_alpha s) None (combine xs (scan (sma_out len) h xs)).
  Proof.
    induction xs as [|x xs IH]; intros h s H E Hp Hi; [reflexivity|].
    cbn [combine scan ema_rec]. rewrite run_cons.
    destruct (sma_step_spec len c h (ema_sma s) x ltac:(lia) Hi) as (m' & Em & Hi').
    assert (LA : length (h ++ [x]) = S (length h)) by (rewrite app_length; cbn; lia).
    destruct (Nat.leb_spec len (c_index c + length h + 2)) as [L|L].
    - rewrite ema_step_seeded with (len := len) (i := (c_index c + length h)%nat) by auto.
      rewrite Hp, Em; cbn [rbind].
      rewrite ctx_at_S, <- LA.
      destruct (sma_out len (h ++ [x])) as [m|] eqn:Eo.
      + erewrite ema_run_seeded with (ms := scan (sma_out len) (h ++ [x]) xs);
          [reflexivity|exact H|exact E| |reflexivity|].
        * rewrite ctx_at_index, LA. lia.
        * rewrite scan_map, map_length, seq_length; reflexivity.
      + erewrite IH; [reflexivity|exact H|exact E|reflexivity|exact Hi'].
    - rewrite ema_step_early with (len := len) by (auto; rewrite ctx_at_index; lia).
      rewrite Em; cbn [rbind]. rewrite ctx_at_S, <- LA.
      rewrite sma_out_short; [|exact H|lia].
      erewrite IH; [reflexivity|exact H|exact E|exact Hp|exact Hi'].
  Qed.

  Lemma ema_run_one alpha c xs s : ema_len s = 1 -> ema_alpha s = alpha ->
    run ema_step c s xs = Ok xs.
  Proof.
    revert c; induction xs as [|x xs IH]; intros c E1 E2; [reflexivity|].
    rewrite run_cons. unfold ema_step. rewrite E1; cbn [Nat.eqb rbind].
    rewrite IH by assumption. reflexivity.
  Qed.

  Definition ema_inv len alpha i0 (s : ema_st F) : Prop :=
    ema_len s = len /\ ema_alpha s = alpha /\ ema_prev s = None /\ sma_inv len i0 [] (ema_sma s).

  Lemma ema_with_alpha_ok len alpha i0 : 1 <= len ->
    exists s, ema_with_alpha len alpha = Ok s /\ ema_inv len alpha i0 s.
  Proof.
    intros H. destruct (@sma_new_ok F _ len i0 H) as (m & E & Hm).
    unfold ema_with_alpha, assertb. destruct (Nat.leb_spec 1 len); [|lia]. cbn [rbind].
    rewrite E; cbn [rbind]. eexists; split; [reflexivity|].
    split; [reflexivity|split; [reflexivity|split; [reflexivity|exact Hm]]].
  Qed.

  Definition ema_runs len alpha (xs : hist) : res (list (option F)) :=
    if (len =? 1)%nat then Ok xs
    else ema_rec alpha None (combine xs (each_prefix (sma_out len) xs)).

  Lemma ema_run_inv len alpha c s xs : 1 <= len -> ema_inv len alpha (c_index c) s ->
    run ema_step c s xs = ema_runs len alpha xs.
  Proof.
    intros H (E1 & E2 & E3 & Hi). unfold ema_runs. destruct (Nat.eqb_spec len 1) as [->|Hne].
    - eapply ema_run_one; [exact E1|reflexivity].
    - rewrite each_prefix_scan. pose proof (ema_run_seeding len c xs [] s) as G.
      cbn [length] in G. rewrite ctx_at_0 in G. rewrite <- E2. apply G; auto; lia.
  Qed.

  Lemma ema_with_alpha_run len alpha c xs : 1 <= len ->
    run_new (ema_with_alpha len alpha) ema_step c xs = ema_runs len alpha xs.
  Proof.
    intros H. destruct (ema_with_alpha_ok len alpha (c_index c) H) as (s & E & Hi).
    unfold run_new; rewrite E; cbn [rbind]. apply ema_run_inv; assumption.
  Qed.

  (** ** Gap-free inputs *)
  (** The bit-exact value after the present values [vs]. *)
  Definition ema_val (alpha : F) (len : nat) (vs : list F) : option F :=
    if (len =? 1)%nat then newest vs
    else if (length vs <? len)%nat then None
    else Some (fold_left (fun e v => alpha * v + (fZ 1 - alpha) * e) (skipn len vs)
                         (fsum (firstn len vs) / fnat len)).

  Lemma racc_warm len k vs : (length vs < len)%nat -> racc len (warm k vs) = fsum vs.
  Proof.
    intros H. unfold warm.
    assert (G : forall h, (forall n, (n <= length h)%nat -> join (ago (len - 1) (firstn n h)) = None) ->
                racc len h = fold_left oadd h (fZ 0)).
    { intros h; induction h as [|x h IH] using rev_ind; intros Hn; [reflexivity|].
      rewrite racc_snoc, fold_left_app; cbn [fold_left]. rewrite IH.
      - specialize (Hn (length (h ++ [x])) ltac:(lia)). rewrite firstn_all in Hn. rewrite Hn. reflexivity.
      - intros n Ln. specialize (Hn n ltac:(rewrite app_length; lia)).
        rewrite firstn_app in Hn. replace (n - length h)%nat with 0 in Hn by lia.
        cbn in Hn. rewrite app_nil_r in Hn. exact Hn. }
    rewrite G.
    - rewrite fold_left_app.
      assert (E : fold_left oadd (repeat None k) (fZ 0) = fZ 0) by (induction k; cbn; auto).
      rewrite E. unfold fsum. clear. generalize (fZ 0).
      induction vs as [|v vs IH]; intros a; cbn; [reflexivity|apply IH].
    - intros n Ln. unfold ago. rewrite firstn_length_le by exact Ln.
      destruct (Nat.ltb_spec (len - 1) n); [|reflexivity].
      rewrite app_length, repeat_length, map_length in Ln.
      rewrite nth_error_firstn_lt by lia.
      rewrite nth_error_app1 by (rewrite repeat_length; lia).
      destruct (nth_error (repeat None k) _) eqn:E; [|reflexivity].
      apply nth_error_In, repeat_spec in E. subst; reflexivity.
  Qed.

  Lemma warm_snoc {A} k (vs : list A) v : warm k (vs ++ [v]) = warm k vs ++ [Some v].
  Proof. unfold warm. rewrite map_app, app_assoc. reflexivity. Qed.

  Lemma rsum_warm len k vs : length vs = len -> 1 <= len -> rsum len (warm k vs) = fsum vs.
  Proof.
    intros L H. destruct vs as [|v vs] using rev_ind; [cbn in L; lia|].
    rewrite warm_snoc, rsum_snoc, racc_warm.
    - cbn. unfold fsum. rewrite fold_left_app. reflexivity.
    - rewrite app_length in L; cbn in L; lia.
  Qed.

  Lemma window_warm {A} len k (vs : list A) : 1 <= len ->
    window len (warm k vs) = if (len <=? length vs)%nat then Some (lastn len vs) else None.
  Proof.
    intros H. unfold window, warm, lastn. rewrite app_length, repeat_length, map_length.
    destruct (Nat.leb_spec len (length vs)) as [L|L].
    - destruct (Nat.leb_spec len (k + length vs)); [|lia].
      rewrite skipn_app, repeat_length, skipn_all2 by (rewrite repeat_length; lia).
      cbn [app]. replace (k + length vs - len - k)%nat with (length vs - len)%nat by lia.
      rewrite skipn_map. apply all_some_map_Some.
    - destruct (Nat.leb_spec len (k + length vs)); [|reflexivity].
      apply all_some_None. rewrite skipn_app. apply in_or_app; left.
      assert (G : forall n, (n < k)%nat -> In (@None A) (skipn n (repeat None k))).
      { clear. induction k as [|k IH]; intros n Hn; [lia|]. destruct n; cbn; [left; reflexivity|].
        apply IH; lia. }
      apply G; lia.
  Qed.

  Lemma ema_rec_seeded alpha : forall (vs : list F) p ms, length ms = length vs ->
    ema_rec alpha (Some p) (combine (map Some vs) ms) =
    Ok (each_prefix (fun p' => Some (fold_left (fun e v => alpha * v + (fZ 1 - alpha) * e) p' p)) vs).
  Proof.
    induction vs as [|v vs IH]; intros p ms L; [reflexivity|].
    destruct ms as [|m ms]; [discriminate|]. cbn [map combine ema_rec unwrap rbind].
    rewrite IH by (cbn in L; lia). cbn [rbind]. f_equal.
    unfold each_prefix, prefixes. cbn [length seq map firstn fold_left]. f_equal.
    rewrite <- seq_shift, !map_map. apply map_ext; intros k. reflexivity.
  Qed.

  Lemma scan_app {A B} (f : list A -> B) h xs ys :
    scan f h (xs ++ ys) = scan f h xs ++ scan f (h ++ xs) ys.
  Proof.
    revert h; induction xs as [|x xs IH]; intros h; cbn; [rewrite app_nil_r; reflexivity|].
    rewrite IH, <- app_assoc. reflexivity.
  Qed.

  Lemma ema_rec_nones alpha : forall xs ms rest, length ms = length xs -> Forall (fun m => m = None) ms ->
    ema_rec alpha None (combine xs ms ++ rest) =
    (os <- ema_rec alpha None rest ;; Ok (repeat None (length xs) ++ os)).
  Proof.
    induction xs as [|x xs IH]; intros ms rest L HF; destruct ms as [|m ms]; try discriminate; cbn [combine app length repeat].
    - destruct (ema_rec alpha None rest); reflexivity.
    - inversion HF; subst. cbn [ema_rec]. rewrite IH by (auto; cbn in L; lia).
      destruct (ema_rec alpha None rest); reflexivity.
  Qed.

  Lemma combine_app {A B} (l1 l2 : list A) (m1 m2 : list B) : length l1 = length m1 ->
    combine (l1 ++ l2) (m1 ++ m2) = combine l1 m1 ++ combine l2 m2.
  Proof.
    revert m1; induction l1 as [|a l1 IH]; intros [|b m1] L; try discriminate; [reflexivity|].
    cbn. rewrite IH; [reflexivity|cbn in L; lia].
  Qed.

  Lemma each_prefix_app {A B} (f : list A -> B) xs ys :
    each_prefix f (xs ++ ys) = each_prefix f xs ++ each_prefix (fun p => f (xs ++ p)) ys.
  Proof.
    rewrite !each_prefix_scan, scan_app, !scan_map. reflexivity.
  Qed.

  Lemma each_prefix_const {A B} (f : list A -> B) b xs :
    (forall p, In p (prefixes xs) -> f p = b) -> each_prefix f xs = repeat b (length xs).
  Proof.
    intros H. unfold each_prefix.
    assert (L : length (prefixes xs) = length xs) by (unfold prefixes; rewrite map_length, seq_length; reflexivity).
    rewrite <- L. clear L. induction (prefixes xs) as [|p ps IH]; [reflexivity|].
    cbn. rewrite H by (left; reflexivity). f_equal. apply IH. intros q Hq; apply H; right; exact Hq.
  Qed.

  Lemma prefix_length {A} (xs p : list A) : In p (prefixes xs) -> (1 <= length p <= length xs)%nat.
  Proof. intros H. apply in_prefixes in H. destruct H as (k & Hk & ->). rewrite firstn_length_le by lia. lia. Qed.

  Lemma prefix_In {A} (xs p : list A) a : In p (prefixes xs) -> In a p -> In a xs.
  Proof. intros H. apply in_prefixes in H. destruct H as (k & Hk & ->). apply firstn_In. Qed.

  Lemma each_prefix_ext_in {A B} (f g : list A -> B) xs :
    (forall p, In p (prefixes xs) -> f p = g p) -> each_prefix f xs = each_prefix g xs.
  Proof. intros H; apply map_ext_in; exact H. Qed.

  Lemma firstn_skipn_prefix {A} n (xs : list A) : xs = firstn n xs ++ skipn n xs.
  Proof. symmetry; apply firstn_skipn. Qed.

  (** Ema over gap-free data, with any number of leading gaps. *)
  Lemma ema_runs_warm len alpha k vs : 1 <= len ->
    ema_runs len alpha (warm k vs) =
    Ok (repeat None k ++ each_prefix (ema_val alpha len) vs).
  Proof.
    intros H. unfold ema_runs. destruct (Nat.eqb_spec len 1) as [->|Hne].
    - unfold warm. do 2 f_equal. unfold ema_val. rewrite Nat.eqb_refl.
      induction vs as [|v vs IH] using rev_ind; [reflexivity|].
      rewrite map_app, each_prefix_snoc, IH, newest_snoc; reflexivity.
    - (* before the seed every simple average is missing *)
      destruct (Nat.ltb_spec (length vs) len) as [Hs|Hs].
      + assert (N : each_prefix (sma_out len) (warm k vs) = repeat None (length (warm k vs))).
        { apply each_prefix_const. intros p Hp. unfold sma_out.
          destruct (Nat.eqb_spec len 1); [lia|].
          destruct (window len p) as [w|] eqn:E; [exfalso|reflexivity].
          pose proof (window_length _ _ _ E) as LW.
          apply in_prefixes in Hp. destruct Hp as (j & Hj & ->).
          unfold warm in *. rewrite firstn_app, firstn_map, repeat_length in E.
          rewrite app_length, repeat_length, map_length in Hj.
          assert (R : exists a, firstn (S j) (repeat (@None F) k) = repeat None a).
          { exists (Nat.min (S j) k). clear. revert k; induction (S j) as [|m IH]; intros k; [reflexivity|].
            destruct k; [reflexivity|]. cbn. rewrite IH. reflexivity. }
          destruct R as (a & Ra). rewrite Ra in E.
          change (window len (warm a (firstn (S j - k) vs)) = Some w) in E.
          rewrite window_warm in E by lia.
          destruct (Nat.leb_spec len (length (firstn (S j - k) vs))) as [L|L]; [|discriminate].
          rewrite firstn_length in L. lia. }
        rewrite N. rewrite <- (app_nil_r (combine _ _)), ema_rec_nones.
        * cbn [ema_rec rbind]. f_equal. rewrite app_nil_r. unfold warm.
          rewrite app_length, repeat_length, map_length.
          rewrite each_prefix_const with (b := None).
          -- rewrite repeat_app. reflexivity.
          -- intros p Hp. apply prefix_length in Hp. unfold ema_val.
             destruct (Nat.eqb_spec len 1); [lia|].
             destruct (Nat.ltb_spec (length p) len); [reflexivity|lia].
        * apply repeat_length.
        * apply Forall_forall. intros m Hm. apply repeat_spec in Hm. exact Hm.
      + (* split at the seed *)
        destruct len as [|n]; [lia|].
        assert (SP : exists pre sd post, vs = pre ++ sd :: post /\ length pre = n).
        { exists (firstn n vs).
          destruct (skipn n vs) as [|sd post] eqn:E.
          - apply (f_equal (@length F)) in E. rewrite skipn_length in E. cbn in E; lia.
          - exists sd, post. split; [rewrite <- E; symmetry; apply firstn_skipn|].
            apply firstn_length_le; lia. }
        destruct SP as (pre & sd & post & -> & Lp).
        replace (warm k (pre ++ sd :: post)) with (warm k pre ++ Some sd :: map Some post).
        2:{ unfold warm. rewrite map_app, <- app_assoc. reflexivity. }
        assert (Npre : each_prefix (sma_out (S n)) (warm k pre) = repeat None (length (warm k pre))).
        { apply each_prefix_const. intros p Hp. unfold sma_out.
          destruct (Nat.eqb_spec (S n) 1); [lia|].
          destruct (window (S n) p) as [w|] eqn:E; [exfalso|reflexivity].
          apply in_prefixes in Hp. destruct Hp as (j & Hj & ->).
          unfold warm in *. rewrite firstn_app, firstn_map, repeat_length in E.
          rewrite app_length, repeat_length, map_length in Hj.
          assert (R : exists a, firstn (S j) (repeat (@None F) k) = repeat None a).
          { exists (Nat.min (S j) k). clear. revert k; induction (S j) as [|m IH]; intros k; [reflexivity|].
            destruct k; [reflexivity|]. cbn. rewrite IH. reflexivity. }
          destruct R as (a & Ra). rewrite Ra in E.
          change (window (S n) (warm a (firstn (S j - k) pre)) = Some w) in E.
          rewrite window_warm in E by lia.
          destruct (Nat.leb_spec (S n) (length (firstn (S j - k) pre))) as [L|L]; [|discriminate].
          rewrite firstn_length in L. lia. }
        rewrite each_prefix_app, Npre.
        assert (L1 : length (warm k pre) = length (repeat (@None F) (length (warm k pre))))
          by (rewrite repeat_length; reflexivity).
        rewrite combine_app by exact L1.
        rewrite ema_rec_nones; [|symmetry; exact L1|].
        2:{ apply Forall_forall. intros m Hm. apply repeat_spec in Hm. exact Hm. }
        (* the seed bar *)
        rewrite each_prefix_scan. cbn [scan combine ema_rec app].
        assert (SD : sma_out (S n) (warm k pre ++ [Some sd]) =
                     Some (fsum (pre ++ [sd]) / fnat (S n))).
        { rewrite <- warm_snoc. unfold sma_out. destruct (Nat.eqb_spec (S n) 1); [lia|].
          assert (LL : length (pre ++ [sd]) = S n) by (rewrite app_length; cbn; lia).
          rewrite window_warm, LL, Nat.leb_refl by lia. cbn [option_map].
          rewrite rsum_warm by (exact LL || lia). reflexivity. }
        rewrite SD, ema_rec_seeded.
        2:{ rewrite scan_map, map_length, seq_length, map_length. reflexivity. }
        cbn [rbind]. f_equal. unfold warm. rewrite app_length, repeat_length, map_length.
        rewrite repeat_app, <- app_assoc. f_equal.
        rewrite each_prefix_app. f_equal.
        * symmetry. rewrite each_prefix_const with (b := None); [rewrite ?Lp; reflexivity|].
          intros p Hp. apply prefix_length in Hp. unfold ema_val.
          destruct (Nat.eqb_spec (S n) 1); [lia|].
          destruct (Nat.ltb_spec (length p) (S n)); [reflexivity|lia].
        * rewrite (each_prefix_scan _ (sd :: post)). cbn [scan app].
          unfold ema_val at 1. destruct (Nat.eqb_spec (S n) 1); [lia|].
          destruct (Nat.ltb_spec (length (pre ++ [sd])) (S n)) as [L|L]; [rewrite app_length in L; cbn in L; lia|].
          f_equal.
          { rewrite firstn_all2, skipn_all2 by (rewrite app_length; cbn; lia). reflexivity. }
          rewrite scan_map. unfold each_prefix, prefixes. rewrite map_map. apply map_ext; intros j.
          unfold ema_val. destruct (Nat.eqb_spec (S n) 1); [lia|].
          set (q := firstn (S j) post). cbn [app].
          destruct (Nat.ltb_spec (length (pre ++ sd :: q)) (S n)) as [L'|L']; [rewrite app_length in L'; cbn in L'; lia|].
          replace (pre ++ sd :: q) with ((pre ++ [sd]) ++ q) by (rewrite <- app_assoc; reflexivity).
          assert (LL : length (pre ++ [sd]) = S n) by (rewrite app_length; cbn; lia).
          rewrite firstn_app, skipn_app, LL, Nat.sub_diag. rewrite firstn_O, skipn_O.
          rewrite firstn_all2, skipn_all2, app_nil_r by lia. reflexivity.
  Qed.

  (** ** Rma *)
  Lemma rma_new_eq len : 1 <= len -> rma_new len = ema_with_alpha len (fZ 1 / fnat len).
  Proof. intros H; unfold rma_new, assertb. destruct (Nat.leb_spec 1 len); [reflexivity|lia]. Qed.

  Lemma rma_new_ok len i0 : 1 <= len ->
    exists s, rma_new len = Ok s /\ ema_inv len (fZ 1 / fnat len) i0 s.
  Proof. intros H. rewrite rma_new_eq by exact H. apply ema_with_alpha_ok; exact H. Qed.

  Lemma rma_run len c xs : 1 <= len ->
    run_new (rma_new len) rma_step c xs = ema_runs len (fZ 1 / fnat len) xs.
  Proof. intros H. rewrite rma_new_eq by exact H. apply ema_with_alpha_run; exact H. Qed.
End Ema.
