(** * PTa1: running sums, averages, Change, Roc, Wma, Swma. *)
From Verif Require Export PCommon.

Section Ta1.
  Context {F : Type} {NF : Num F}.
  Local Open Scope num_scope.
  Local Notation hist := (list (option F)).

  Definition oadd (a : F) (x : option F) : F := match x with Some v => a + v | None => a end.
  Definition osub (a : F) (x : option F) : F := match x with Some v => a - v | None => a end.

  (** The accumulator of [Sum]/[Sma] between two calls: every value is added
      when it enters the window and subtracted when it leaves. *)
  Definition racc (len : nat) (h : hist) : F :=
    fold_left (fun acc p => osub (oadd acc (join (newest p))) (join (ago (len - 1) p)))
              (prefixes h) (fZ 0).
  (** The accumulator at the moment the output is computed. *)
  Definition rsum (len : nat) (h : hist) : F :=
    oadd (racc len (removelast h)) (join (newest h)).

  Lemma prefixes_snoc {A} (l : list A) x : prefixes (l ++ [x]) = prefixes l ++ [l ++ [x]].
  Proof.
    pose proof (@each_prefix_snoc A _ (fun p => p) l x) as E.
    unfold each_prefix in E. rewrite !map_id in E. exact E.
  Qed.

  Lemma racc_snoc len h x :
    racc len (h ++ [x]) = osub (oadd (racc len h) x) (join (ago (len - 1) (h ++ [x]))).
  Proof.
    unfold racc. rewrite prefixes_snoc, fold_left_app; cbn [fold_left].
    rewrite newest_snoc; reflexivity.
  Qed.
  Lemma rsum_snoc len h x : rsum len (h ++ [x]) = oadd (racc len h) x.
  Proof. unfold rsum. rewrite removelast_last, newest_snoc; reflexivity. Qed.

  (** ** Sum *)
  Definition sum_inv len i0 (h : hist) (s : sum_st F) : Prop :=
    su_len s = len /\ su_sum s = racc len h /\ su_cache s = mkWC len h /\ wv_inv len i0 h (su_valid s).

  Definition sum_out len (h : hist) : option F :=
    option_map (fun _ => rsum len h) (window len h).

  Lemma sum_step_spec len c h s x : 1 <= len -> sum_inv len (c_index c) h s ->
    exists s', sum_step (ctx_at c (length h)) s x = Ok (s', sum_out len (h ++ [x])) /\
               sum_inv len (c_index c) (h ++ [x]) s'.
  Proof.
    intros Hl (E1 & E2 & E3 & Hv). destruct s as [l a k v]; cbn in *; subst l a k.
    unfold sum_step; cbn [su_len su_sum su_cache su_valid].
    rewrite wc_push_eq, wc_first_unwrapped_ago by exact Hl. cbn [rbind].
    destruct (wv_step_spec len c h v x Hv Hl) as (v' & Ev & Hv').
    rewrite Ev; cbn [rbind]. rewrite wc_last_unwrapped_snoc.
    eexists; split.
    - f_equal. f_equal. unfold wc_is_filled; cbn [wc_len wc_vals].
      rewrite filled_valid_window. unfold sum_out. rewrite rsum_snoc.
      destruct (window len (h ++ [x])); reflexivity.
    - repeat split; cbn [su_len su_sum su_cache su_valid].
      + rewrite racc_snoc. destruct x, (join _); reflexivity.
      + apply Hv'.
      + apply Hv'.
  Qed.

  Lemma sum_new_ok len i0 : 1 <= len -> exists s, sum_new len = Ok s /\ sum_inv len i0 [] s.
  Proof.
    intros H. destruct (@wv_inv_init F len i0 H) as (v & E & Hv).
    unfold sum_new, assertb. destruct (Nat.leb_spec 1 len); [|lia]. cbn [rbind]. rewrite E; cbn [rbind].
    eexists; split; [reflexivity|]. repeat split; apply Hv.
  Qed.

  Lemma sum_run_inv len c s xs : 1 <= len -> sum_inv len (c_index c) [] s ->
    run sum_step c s xs = Ok (each_prefix (sum_out len) xs).
  Proof.
    intros H Hi. apply (@run_spec F _ _ _ sum_step (sum_inv len (c_index c))); [exact Hi|].
    intros h s' x Hs; apply sum_step_spec; assumption.
  Qed.

  Lemma sum_run len c xs : 1 <= len ->
    run_new (sum_new len) sum_step c xs = Ok (each_prefix (sum_out len) xs).
  Proof.
    intros H. destruct (sum_new_ok len (c_index c) H) as (s & E & Hi).
    unfold run_new; rewrite E; cbn [rbind]. apply sum_run_inv; assumption.
  Qed.

  (** ** Sma *)
  Definition sma_inv len i0 (h : hist) (s : sma_st F) : Prop :=
    sma_len s = len /\
    (len <> 1 -> sma_lenf s = fnat len /\ sma_sum s = racc len h /\ sma_cache s = mkWC len h /\
                 wv_inv len i0 h (sma_valid s)).

  Definition sma_out len (h : hist) : option F :=
    if (len =? 1)%nat then join (newest h)
    else option_map (fun _ => rsum len h / fnat len) (window len h).

  Lemma sma_step_spec len c h s x : 1 <= len -> sma_inv len (c_index c) h s ->
    exists s', sma_step (ctx_at c (length h)) s x = Ok (s', sma_out len (h ++ [x])) /\
               sma_inv len (c_index c) (h ++ [x]) s'.
  Proof.
    intros Hl (E1 & Hr). destruct s as [l lf a k v]; cbn in *; subst l.
    unfold sma_step, sma_out; cbn [sma_len sma_lenf sma_sum sma_cache sma_valid].
    destruct (Nat.eqb_spec len 1) as [->|Hne].
    - rewrite newest_snoc. eexists; split; [reflexivity|]. split; [reflexivity|]. intros C; congruence.
    - destruct (Hr Hne) as (-> & -> & -> & Hv). clear Hr.
      rewrite wc_push_eq.
      destruct (wv_step_spec len c h v x Hv Hl) as (v' & Ev & Hv').
      rewrite Ev; cbn [rbind]. rewrite wc_first_unwrapped_ago by exact Hl. cbn [rbind].
      rewrite wc_last_unwrapped_snoc.
      eexists; split.
      + f_equal. f_equal. unfold wc_is_filled; cbn [wc_len wc_vals].
        rewrite filled_valid_window, rsum_snoc.
        destruct (window len (h ++ [x])); reflexivity.
      + split; [reflexivity|]. intros _. repeat split; cbn [sma_lenf sma_sum sma_cache sma_valid].
        * rewrite racc_snoc. destruct x, (join _); reflexivity.
        * apply Hv'.
        * apply Hv'.
  Qed.

  Lemma sma_new_ok len i0 : 1 <= len -> exists s, sma_new len = Ok s /\ sma_inv len i0 [] s.
  Proof.
    intros H. destruct (@wv_inv_init F len i0 H) as (v & E & Hv).
    unfold sma_new, assertb. destruct (Nat.leb_spec 1 len); [|lia]. cbn [rbind]. rewrite E; cbn [rbind].
    eexists; split; [reflexivity|]. split; [reflexivity|]. intros _; repeat split; apply Hv.
  Qed.

  Lemma sma_run_inv len c s xs : 1 <= len -> sma_inv len (c_index c) [] s ->
    run sma_step c s xs = Ok (each_prefix (sma_out len) xs).
  Proof.
    intros H Hi. apply (@run_spec F _ _ _ sma_step (sma_inv len (c_index c))); [exact Hi|].
    intros h s' x Hs; apply sma_step_spec; assumption.
  Qed.

  Lemma sma_run len c xs : 1 <= len ->
    run_new (sma_new len) sma_step c xs = Ok (each_prefix (sma_out len) xs).
  Proof.
    intros H. destruct (sma_new_ok len (c_index c) H) as (s & E & Hi).
    unfold run_new; rewrite E; cbn [rbind]. apply sma_run_inv; assumption.
  Qed.

  Lemma sma_new_0 : sma_new 0 = Panic.
  Proof. reflexivity. Qed.
  Lemma sum_new_0 : sum_new 0 = Panic.
  Proof. reflexivity. Qed.

  Lemma sma_out_defined len h : 1 <= len -> h <> [] ->
    is_some (sma_out len h) = is_some (window len h).
  Proof.
    intros H Hh. unfold sma_out. destruct (Nat.eqb_spec len 1) as [->|].
    - destruct h as [|x h] using rev_ind; [congruence|]. rewrite newest_snoc.
      unfold window. rewrite app_length; cbn [length].
      destruct (Nat.leb_spec 1 (length h + 1)); [|lia].
      rewrite lastn_S_snoc, lastn_0. destruct x; reflexivity.
    - destruct (window len h); reflexivity.
  Qed.

  (** ** Change, Roc *)
  Definition change_out len (h : hist) : option F :=
    match join (ago len h), join (newest h) with
    | Some old, Some new => if old ==? fZ 0 then None else Some (new - old)
    | _, _ => None
    end.
  Definition roc_out len (h : hist) : option F :=
    match join (ago len h), join (newest h) with
    | Some old, Some new => if old ==? fZ 0 then None else Some (fZ 100 * (new - old) / old)
    | _, _ => None
    end.

  Lemma ago_unfilled {A} n (h : list A) : length h <= n -> ago n h = None.
  Proof. intros H; unfold ago. destruct (Nat.ltb_spec n (length h)); [lia|reflexivity]. Qed.

  Lemma change_run len c xs : 1 <= len ->
    run_new (change_new len) change_step c xs = Ok (each_prefix (change_out len) xs).
  Proof.
    intros H. unfold run_new, change_new, assertb. destruct (Nat.leb_spec 1 len); [|lia]. cbn [rbind].
    apply (@run_spec F _ _ _ change_step (fun h s => s = mkWC (len + 1) h)); [reflexivity|].
    intros h s x ->. unfold change_step. rewrite wc_push_eq, wc_first_unwrapped_ago by lia.
    cbn [rbind]. rewrite wc_last_unwrapped_snoc. replace (len + 1 - 1)%nat with len by lia.
    eexists; split; [|reflexivity]. unfold wc_is_filled; cbn [wc_len wc_vals]. unfold change_out.
    rewrite newest_snoc; cbn [join].
    destruct (Nat.leb_spec (len + 1) (length (h ++ [x]))); cbn [negb orb].
    - destruct (join (ago len (h ++ [x]))) as [o|], x as [n|]; cbn; try reflexivity.
      destruct (o ==? fZ 0); reflexivity.
    - rewrite ago_unfilled by lia. reflexivity.
  Qed.

  Lemma roc_new_ok len : 1 <= len -> roc_new len = Ok (mkWC (len + 1) ([] : hist)).
  Proof. intros H; unfold roc_new, assertb. destruct (Nat.leb_spec 1 len); [|lia]. reflexivity. Qed.

  Lemma roc_run_inv len c xs : 1 <= len ->
    run roc_step c (mkWC (len + 1) []) xs = Ok (each_prefix (roc_out len) xs).
  Proof.
    intros H.
    apply (@run_spec F _ _ _ roc_step (fun h s => s = mkWC (len + 1) h)); [reflexivity|].
    intros h s x ->. unfold roc_step. rewrite wc_push_eq, wc_first_unwrapped_ago by lia.
    cbn [rbind]. rewrite wc_last_unwrapped_snoc. replace (len + 1 - 1)%nat with len by lia.
    eexists; split; [|reflexivity]. unfold wc_is_filled; cbn [wc_len wc_vals]. unfold roc_out.
    rewrite newest_snoc; cbn [join].
    destruct (Nat.leb_spec (len + 1) (length (h ++ [x]))); cbn [negb orb].
    - destruct (join (ago len (h ++ [x]))) as [o|], x as [n|]; cbn; try reflexivity.
      destruct (o ==? fZ 0); reflexivity.
    - rewrite ago_unfilled by lia. reflexivity.
  Qed.

  Lemma roc_run len c xs : 1 <= len ->
    run_new (roc_new len) roc_step c xs = Ok (each_prefix (roc_out len) xs).
  Proof. intros H. unfold run_new. rewrite roc_new_ok by exact H. cbn [rbind]. apply roc_run_inv; exact H. Qed.

  (** ** Wma *)
  (** numerator and denominator over the window values, newest first: weights
      [len*len, (len-1)*len, ...]. *)
  Fixpoint wma_sums (len : nat) (vs : list F) (i : nat) (sum norm : F) : F * F :=
    match vs with
    | [] => (sum, norm)
    | v :: t =>
        let w := fnat ((len - i) * len) in
        wma_sums len t (S i) (sum + v * w) (norm + w)
    end.
  Definition wma_mean (vs : list F) : F :=
    let '(s, n) := wma_sums (length vs) (rev vs) 0 (fZ 0) (fZ 0) in s / n.

  Lemma wma_fold_ok len vs i s n : i + length vs <= len ->
    wma_fold len (map Some vs) i s n = Ok (wma_sums len vs i s n).
  Proof.
    revert i s n; induction vs as [|v vs IH]; intros i s n H; cbn [map wma_fold wma_sums]; [reflexivity|].
    cbn [unwrap rbind length] in *. unfold usub. destruct (Nat.leb_spec i len); [|lia]. cbn [rbind].
    apply IH; lia.
  Qed.

  (** The output of a component that uses [at_length] and a validator: the
      number of bars since the series start ([i0] before the first input)
      decides whether the window counts as full. *)
  Definition wma_out len i0 (h : hist) : option F :=
    if (len <=? i0 + length h)%nat then
      option_map (fun vs => let '(s, n) := wma_sums len (rev vs) 0 (fZ 0) (fZ 0) in s / n)
                 (all_some (lastn len h))
    else None.

  Lemma wma_run len c xs : 1 <= len ->
    run_new (wma_new len) wma_step c xs = Ok (each_prefix (wma_out len (c_index c)) xs).
  Proof.
    intros H. destruct (@wv_inv_init F len (c_index c) H) as (v & E & Hv).
    unfold run_new, wma_new, assertb. destruct (Nat.leb_spec 1 len); [|lia]. cbn [rbind]. rewrite E; cbn [rbind].
    apply (@run_spec F _ _ _ wma_step (fun h s => wm_len s = len /\ wm_cache s = mkWC len h /\
             wv_inv len (c_index c) h (wm_valid s))); [repeat split; apply Hv|].
    intros h s x (E1 & E2 & Hi). destruct s as [l k v0]; cbn in E1, E2, Hi; subst l k.
    unfold wma_step; cbn [wm_len wm_cache wm_valid]. rewrite wc_push_eq.
    destruct (wv_step_spec len c h v0 x Hi H) as (v' & Ev & Hv').
    rewrite Ev; cbn [rbind]. rewrite at_length_ok by exact H. cbn [rbind].
    rewrite ctx_at_index. unfold wma_out. rewrite app_length; cbn [length].
    replace (c_index c + length h + 1)%nat with (c_index c + (length h + 1))%nat by lia.
    rewrite wc_all_lastn.
    destruct (Nat.leb_spec len (c_index c + (length h + 1))); cbn [negb orb].
    2:{ eexists; split; [reflexivity|]. repeat split; apply Hv'. }
    unfold valid_window. destruct (all_some (lastn len (h ++ [x]))) as [vs|] eqn:Ew; cbn [is_some negb option_map].
    2:{ eexists; split; [reflexivity|]. repeat split; apply Hv'. }
    pose proof (all_some_length _ _ Ew) as L. rewrite length_lastn in L.
    apply all_some_Some in Ew. rewrite Ew, <- map_rev, wma_fold_ok.
    2:{ rewrite rev_length. lia. }
    cbn [rbind]. destruct (wma_sums len (rev vs) 0 (fZ 0) (fZ 0)) as [a b].
    eexists; split; [reflexivity|]. repeat split; apply Hv'.
  Qed.

  (** ** Swma *)
  Definition swma_mean (vs : list F) : F :=
    match vs with
    | [a; b; d; e] =>
        fZ 0 + a * (fZ 1 / fZ 6) + b * (fZ 2 / fZ 6) + d * (fZ 2 / fZ 6) + e * (fZ 1 / fZ 6)
    | [a; b; d] => fZ 0 + a * (fZ 1 / fZ 6) + b * (fZ 2 / fZ 6) + d * (fZ 2 / fZ 6)
    | [a; b] => fZ 0 + a * (fZ 1 / fZ 6) + b * (fZ 2 / fZ 6)
    | [a] => fZ 0 + a * (fZ 1 / fZ 6)
    | _ => fZ 0
    end.
  Definition swma_out i0 (h : hist) : option F :=
    if (4 <=? i0 + length h)%nat then option_map swma_mean (all_some (lastn 4 h)) else None.

  Definition swma_inv i0 (h : hist) (s : swma_st F) : Prop :=
    sw_len s = 4 /\ sw_cache s = mkWC 4 h /\ wv_inv 4 i0 h (sw_valid s).

  Lemma swma_new_ok i0 : exists s, swma_new = Ok s /\ swma_inv i0 [] s.
  Proof.
    destruct (@wv_inv_init F 4 i0 ltac:(lia)) as (v & E & Hv).
    unfold swma_new; rewrite E; cbn [rbind]. eexists; split; [reflexivity|]. repeat split; apply Hv.
  Qed.

  Lemma swma_fold_ok vs : length vs <= 4 ->
    swma_fold (map Some vs) 0 (fZ 0) = Ok (swma_mean vs).
  Proof.
    intros H. do 5 (destruct vs as [|? vs]; [reflexivity|]). cbn in H; lia.
  Qed.

  Lemma swma_run_inv c s xs : swma_inv (c_index c) [] s ->
    run swma_step c s xs = Ok (each_prefix (swma_out (c_index c)) xs).
  Proof.
    intros Hs. apply (@run_spec F _ _ _ swma_step (swma_inv (c_index c))); [exact Hs|].
    clear s Hs. intros h s x (E1 & E2 & Hi). destruct s as [l k v0]; cbn in E1, E2, Hi; subst l k.
    unfold swma_step; cbn [sw_len sw_cache sw_valid]. rewrite wc_push_eq.
    destruct (wv_step_spec 4 c h v0 x Hi ltac:(lia)) as (v' & Ev & Hv').
    rewrite Ev; cbn [rbind]. rewrite at_length_ok by lia. cbn [rbind].
    rewrite ctx_at_index. unfold swma_out. rewrite app_length; cbn [length].
    replace (c_index c + length h + 1)%nat with (c_index c + (length h + 1))%nat by lia.
    rewrite wc_all_lastn.
    destruct (Nat.leb_spec 4 (c_index c + (length h + 1))); cbn [negb orb].
    2:{ eexists; split; [reflexivity|]. repeat split; apply Hv'. }
    unfold valid_window. destruct (all_some (lastn 4 (h ++ [x]))) as [vs|] eqn:Ew; cbn [is_some negb option_map].
    2:{ eexists; split; [reflexivity|]. repeat split; apply Hv'. }
    pose proof (all_some_length _ _ Ew) as L. rewrite length_lastn in L.
    apply all_some_Some in Ew. rewrite Ew, swma_fold_ok by lia. cbn [rbind].
    eexists; split; [reflexivity|]. repeat split; apply Hv'.
  Qed.

  Lemma swma_run c xs :
    run_new swma_new swma_step c xs = Ok (each_prefix (swma_out (c_index c)) xs).
  Proof.
    destruct (swma_new_ok (c_index c)) as (s & E & Hi). unfold run_new; rewrite E; cbn [rbind].
    apply swma_run_inv; exact Hi.
  Qed.
End Ta1.
