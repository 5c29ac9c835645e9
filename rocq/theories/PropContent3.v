(** * PropContent3: C55 (exact) - C57. *)
From Verif Require Import PTa4 PExact3 Inst PropTa3 PropContent2.

Lemma newest_full1 (v : R) : newest (full [v]) = Some (Some (Fin v)). Proof. reflexivity. Qed.
Lemma momentum_full1 (v : R) : momentum (full [v]) = None. Proof. reflexivity. Qed.
Lemma full_app h t : full (h ++ t) = full h ++ full t. Proof. apply map_app. Qed.
Lemma momentum_full h (a b : R) : momentum (full (h ++ [a; b])) = Some (Fin (b - a)).
Proof.
  replace (h ++ [a; b]) with ((h ++ [a]) ++ [b]) by (rewrite <- app_assoc; reflexivity).
  rewrite !full_app. change (full [b]) with [Some (Fin b)]. change (full [a]) with [Some (Fin a)].
  rewrite momentum_snoc, newest_snoc. reflexivity.
Qed.
Lemma diffs_pairs l : diffs l = map (fun p => snd p - fst p)%R (pairs l).
Proof.
  induction l as [|x l IH]; [reflexivity|]. destruct l as [|y l]; [reflexivity|].
  change (diffs (x :: y :: l)) with ((y - x)%R :: diffs (y :: l)). rewrite IH. reflexivity.
Qed.
Lemma mom_series (f : option xr -> option xr) (g : R -> R) h : h <> [] -> f None = None ->
  (forall d, f (Some (Fin d)) = Some (Fin (g d))) ->
  each_prefix (fun p => f (momentum p)) (full h) = warm 1 (map Fin (map g (diffs h))).
Proof.
  intros N F0 F1. unfold full at 1. rewrite each_prefix_of_map.
  rewrite (each_pairs _ (fun a b => Fin (g (b - a)%R)) h N).
  - rewrite diffs_pairs, !map_map. reflexivity.
  - intros a. change (map (fun v => Some (Fin v)) [a]) with (full [a]). rewrite momentum_full1. exact F0.
  - intros t a b. change (map (fun v => Some (Fin v)) (t ++ [a; b])) with (full (t ++ [a; b])).
    rewrite momentum_full. apply F1.
Qed.
Lemma full_firstn n vs : firstn n (full vs) = full (firstn n vs). Proof. apply firstn_map. Qed.
Lemma firstn_S_nonnil {A} (l : list A) i x : nth_error l i = Some x -> firstn (S i) l <> [].
Proof. destruct l; destruct i; discriminate. Qed.

Lemma Rsum_nonneg l : Forall (fun x => 0 <= x)%R l -> (0 <= Rsum l)%R.
Proof. induction 1; cbn; lra. Qed.
Lemma Rsum_zero l : Forall (fun x => 0 <= x)%R l -> (Rsum l = 0)%R -> Forall (fun x => x = 0)%R l.
Proof. induction 1 as [|x l P F IH]; cbn; intros E; constructor; pose proof (Rsum_nonneg l F); [lra|apply IH; lra]. Qed.

Section C55x.
  Local Open Scope R_scope.
  (** Total rise and total fall over a list of changes. *)
  Definition total_rise (ds : list R) : R := Rsum (map (fun d => Rmax d 0) ds).
  Definition total_fall (ds : list R) : R := Rsum (map (fun d => Rmax (- d) 0) ds).
  Lemma total_rise_nonneg ds : 0 <= total_rise ds.
  Proof. apply Rsum_nonneg, Forall_forall. intros x I. apply in_map_iff in I. destruct I as (d & <- & _). apply Rmax_r. Qed.
  Lemma total_fall_nonneg ds : 0 <= total_fall ds.
  Proof. apply Rsum_nonneg, Forall_forall. intros x I. apply in_map_iff in I. destruct I as (d & <- & _). apply Rmax_r. Qed.
  Lemma nothing_moved ds : total_rise ds + total_fall ds = 0 <-> Forall (fun d => d = 0) ds.
  Proof.
    unfold total_rise, total_fall. induction ds as [|d ds IH]; cbn; [split; [constructor|lra]|].
    pose proof (total_rise_nonneg ds). pose proof (total_fall_nonneg ds). unfold total_rise, total_fall in *.
    pose proof (Rmax_l d 0). pose proof (Rmax_r d 0). pose proof (Rmax_l (-d) 0). pose proof (Rmax_r (-d) 0).
    split.
    - intros E. constructor; [lra|]. apply IH. lra.
    - intros F. inversion F as [|? ? Ed Fd]; subst. apply IH in Fd.
      rewrite Rmax_left, Rmax_left by lra. lra.
  Qed.
  Theorem C55_exact len (c : ctx xr) src vs : (2 <= len)%nat -> feeds c src (full vs) ->
    exists os, run_new (cmo_new src len) cmo_step c (ticks (length vs)) = Ok os /\ length os = length vs /\
    forall i o, nth_error os i = Some o ->
      match full_window len (diffs (firstn (S i) vs)) with
      | None => o = None
      | Some w =>
          let u := total_rise w in let d := total_fall w in
          (Forall (fun x => x = 0) w -> o = None) /\
          (~ Forall (fun x => x = 0) w -> o = Some (Fin (100 * (u - d) / (u + d))) /\ -100 <= 100 * (u - d) / (u + d) <= 100)
      end.
  Proof.
    intros L H. pose proof (cmo_run len c src _ L H) as R. unfold full in R at 1. rewrite map_length in R. rewrite R.
    eexists; split; [reflexivity|]. split; [unfold full; rewrite length_each_prefix, map_length; reflexivity|].
    intros i o Ho. apply nth_each in Ho. destruct Ho as [Hi ->]. rewrite full_firstn.
    assert (NN : firstn (S i) vs <> []).
    { unfold full in Hi. rewrite map_length in Hi. destruct vs; [cbn in Hi; lia|discriminate]. }
    unfold cmo_out. rewrite (mom_series cmo_up (fun d => Rmax 0 d)), (mom_series cmo_down (fun d => Rabs (Rmin 0 d))); try assumption; try reflexivity.
    2:{ intros d. unfold cmo_down, ps_min, ps_abs. rewrite fin_Z, fin_min. cbn [option_map]. rewrite fin_abs. reflexivity. }
    2:{ intros d. unfold cmo_up, ps_max. rewrite fin_Z, fin_max. reflexivity. }
    rewrite !sum_warm, !full_window_map by lia.
    destruct (full_window len (diffs (firstn (S i) vs))) as [w|] eqn:W; [|reflexivity]. cbn [option_map cmo_value].
    replace (Rsum (map (fun d => Rmax 0 d) w)) with (total_rise w) by (unfold total_rise; f_equal; apply map_ext; intros; apply Rmax_comm).
    replace (Rsum (map (fun d => Rabs (Rmin 0 d)) w)) with (total_fall w).
    2:{ unfold total_fall. f_equal. apply map_ext. intros d. unfold Rmin, Rmax, Rabs. destruct (Rle_dec 0 d), (Rle_dec (- d) 0); repeat destruct (Rcase_abs _); lra. }
    pose proof (total_rise_nonneg w) as P1. pose proof (total_fall_nonneg w) as P2. pose proof (nothing_moved w) as N.
    rewrite fin_neg, fin_eq, !fin_Z. cbv zeta. destruct (Reqb_spec (total_rise w) (- total_fall w)) as [E|E].
    - split; [reflexivity|]. intros M. exfalso. apply M, N. lra.
    - split; [intros M; apply N in M; lra|]. intros _. rewrite fin_sub, fin_add, fin_mul, fin_div by lra.
      split; [reflexivity|]. destruct (ratio_abs (total_rise w - total_fall w) (total_rise w + total_fall w)) as [B1 B2]; [apply Rabs_le; lra|lra|].
      unfold Rdiv in *. rewrite Rmult_assoc. lra.
  Qed.
End C55x.
Example C55_ex : feeds ctx6 (src_box SClose) (map b_close bars6) /\
  gives same_opt (run_new (cmo_new (src_box SClose) 2) cmo_step ctx6 (ticks 6))
    [None; None; Some (fdiv (q (100 * (2 - 1))) (q 3)); Some (q (-100)); Some (fdiv (q (100 * (1 - 3))) (q 4)); Some (q 100)] = true.
Proof. split; [reflexivity|vm_compute; reflexivity]. Qed.

(** ** C56 *)
Section C56.
  Context {F : Type} {NF : Num F}.
  Local Open Scope num_scope.
  (** Buying pressure and true range of a bar [b] after the bar [p]. *)
  Definition buying_pressure (p b : bar F) : option F :=
    match b_close b, b_low b, b_close p with Some cl, Some l, Some pc => Some (cl - fmin l pc) | _, _, _ => None end.
  Definition wide_range (p b : bar F) : option F :=
    match b_high b, b_low b, b_close p with Some h, Some l, Some pc => Some (fmax h pc - fmin l pc) | _, _, _ => None end.
  Lemma bp_each (bs : list (bar F)) : with_prev_bar buying_pressure bs = each_prefix uo_bp_of bs.
  Proof.
    apply with_prev_bar_each.
    - intros a. change [a] with ([] ++ [a]). unfold uo_bp_of. rewrite !cur_snoc, prv_snoc. unfold uo_bp. destruct (b_close a), (b_low a); reflexivity.
    - intros t a b. replace (t ++ [a; b]) with ((t ++ [a]) ++ [b]) by (rewrite <- app_assoc; reflexivity).
      unfold uo_bp_of, buying_pressure. rewrite prv_snoc, !cur_snoc. unfold uo_bp. destruct (b_close b), (b_low b), (b_close a); reflexivity.
  Qed.
  Lemma wr_each (bs : list (bar F)) : with_prev_bar wide_range bs = each_prefix uo_tr_of bs.
  Proof.
    apply with_prev_bar_each.
    - intros a. change [a] with ([] ++ [a]). unfold uo_tr_of. rewrite !cur_snoc, prv_snoc. unfold uo_tr. destruct (b_high a), (b_low a); reflexivity.
    - intros t a b. replace (t ++ [a; b]) with ((t ++ [a]) ++ [b]) by (rewrite <- app_assoc; reflexivity).
      unfold uo_tr_of, wide_range. rewrite prv_snoc, !cur_snoc. unfold uo_tr. destruct (b_high b), (b_low b), (b_close a); reflexivity.
  Qed.
  Theorem C56_ultimate l1 l2 l3 (c : ctx F) bs : (1 <= l1)%nat -> (1 <= l2)%nat -> (1 <= l3)%nat -> fresh_over c bs ->
    let bps := with_prev_bar buying_pressure bs in let trs := with_prev_bar wide_range bs in
    exists b1 t1 b2 t2 b3 t3 os,
      run_new (sum_new l1) sum_step c bps = Ok b1 /\ run_new (sum_new l1) sum_step c trs = Ok t1 /\
      run_new (sum_new l2) sum_step c bps = Ok b2 /\ run_new (sum_new l2) sum_step c trs = Ok t2 /\
      run_new (sum_new l3) sum_step c bps = Ok b3 /\ run_new (sum_new l3) sum_step c trs = Ok t3 /\
      run_new (uo_new l1 l2 l3) uo_step c (ticks (length bs)) = Ok os /\
      os = zip3 (fun fast mid slow => match fast, mid, slow with
                   | Some f, Some m, Some s => Some (fZ 100 * (fZ 4 * f + fZ 2 * m + s) / fZ 7) | _, _, _ => None end)
             (zip quot b1 t1) (zip quot b2 t2) (zip quot b3 t3).
  Proof.
    intros L1 L2 L3 H bps trs. subst bps trs. rewrite bp_each, wr_each, (uo_run l1 l2 l3 c bs L1 L2 L3 H).
    rewrite !(makes_run _ _ _ _ c _ (sum_makes l1 L1) I), !(makes_run _ _ _ _ c _ (sum_makes l2 L2) I), !(makes_run _ _ _ _ c _ (sum_makes l3 L3) I).
    rewrite !each_prefix_each_prefix. do 7 eexists. repeat (split; [reflexivity|]). rewrite !zip_each, zip3_each. reflexivity.
  Qed.
End C56.
Section C56x.
  Local Open Scope R_scope.
  Definition Rbp (p r : rbar5) : R := rc r - Rmin (rl r) (rc p).
  Definition Rwide (p r : rbar5) : R := Rmax (rh r) (rc p) - Rmin (rl r) (rc p).
  (** Buying pressure over true range for the last [len] pairs of bars. *)
  Definition bp_ratio (len : nat) (h : list rbar5) : option R :=
    match full_window len (pairs h) with
    | None => None
    | Some w =>
        let b := Rsum (map (fun p => Rbp (fst p) (snd p)) w) in
        let t := Rsum (map (fun p => Rwide (fst p) (snd p)) w) in
        if Req_EM_T t 0 then None else Some (b / t)
    end.
  Lemma bar2 (t : list rbar5) a b : map bar_of (t ++ [a; b]) = (map bar_of t ++ [bar_of a]) ++ [bar_of b].
  Proof. rewrite map_app, <- app_assoc. reflexivity. Qed.
  Lemma uo_bp_series h : h <> [] -> each_prefix uo_bp_of (map bar_of h) = warm 1 (map Fin (map (fun p => Rbp (fst p) (snd p)) (pairs h))).
  Proof.
    intros N. rewrite each_prefix_of_map, (each_pairs _ (fun a b => Fin (Rbp a b)) h N); [rewrite map_map; reflexivity|reflexivity|].
    intros t a b. unfold uo_bp_of. rewrite bar2, prv_snoc, !cur_snoc. unfold uo_bp. cbn [bar_of b_close b_low ps_min ps_diff]. rewrite fin_min. reflexivity.
  Qed.
  Lemma uo_tr_series h : h <> [] -> each_prefix uo_tr_of (map bar_of h) = warm 1 (map Fin (map (fun p => Rwide (fst p) (snd p)) (pairs h))).
  Proof.
    intros N. rewrite each_prefix_of_map, (each_pairs _ (fun a b => Fin (Rwide a b)) h N); [rewrite map_map; reflexivity|reflexivity|].
    intros t a b. unfold uo_tr_of. rewrite bar2, prv_snoc, !cur_snoc. unfold uo_tr. cbn [bar_of b_close b_low b_high ps_min ps_max ps_diff]. rewrite fin_min, fin_max. reflexivity.
  Qed.
  Lemma uo_ratio_exact len h : (1 <= len)%nat -> h <> [] -> uo_ratio len (map bar_of h) = option_map Fin (bp_ratio len h).
  Proof.
    intros L N. unfold uo_ratio, bp_ratio. rewrite uo_bp_series, uo_tr_series, !sum_warm, !full_window_map by assumption.
    destruct (full_window len (pairs h)) as [w|]; [|reflexivity]. cbn [option_map ps_div]. rewrite fin_Z, fin_eq.
    destruct (Reqb_spec (Rsum (map (fun p => Rwide (fst p) (snd p)) w)) 0) as [E|E]; cbv zeta; destruct (Req_EM_T _ 0); try contradiction; [reflexivity|].
    rewrite fin_div by exact E. reflexivity.
  Qed.
  Lemma in_pairs {A} (P : A -> Prop) (l : list A) p : Forall P l -> In p (pairs l) -> P (fst p) /\ P (snd p).
  Proof.
    induction l as [|x l IH]; intros F I; [destruct I|]. destruct l as [|y l]; [destruct I|].
    inversion F as [|? ? Px Fl]; subst. inversion Fl; subst. destruct I as [<-|I]; [auto|]. apply IH; [constructor; assumption|exact I].
  Qed.
  Lemma Rbp_range p r : consistent r -> 0 <= Rbp p r <= Rwide p r.
  Proof.
    intros [_ C]. unfold Rbp, Rwide. pose proof (Rmin_l (rl r) (rc p)). pose proof (Rmax_l (rh r) (rc p)). lra.
  Qed.
  Lemma Rsum_le {A} (f g : A -> R) w : (forall x, In x w -> 0 <= f x <= g x) -> 0 <= Rsum (map f w) <= Rsum (map g w).
  Proof. induction w as [|x w IH]; intros H; cbn; [lra|]. pose proof (H x (or_introl eq_refl)). assert (Q := IH (fun y I => H y (or_intror I))). lra. Qed.
  Lemma bp_ratio_range len h q : Forall consistent h -> bp_ratio len h = Some q -> 0 <= q <= 1.
  Proof.
    intros C. unfold bp_ratio. destruct (full_window len (pairs h)) as [w|] eqn:W; [|discriminate].
    cbv zeta. destruct (Req_EM_T _ 0) as [E|E]; [discriminate|]. intros Q. injection Q as <-.
    apply full_window_Some in W. destruct W as (-> & _ & _). apply ratio_pos; [|exact E].
    apply Rsum_le. intros p I. apply lastn_In in I. apply (in_pairs consistent) in I; [|exact C]. apply Rbp_range, I.
  Qed.
  Theorem C56_exact l1 l2 l3 (c : ctx xr) rs : (1 <= l1)%nat -> (1 <= l2)%nat -> (1 <= l3)%nat -> fresh_over c (map bar_of rs) ->
    exists os, run_new (uo_new l1 l2 l3) uo_step c (ticks (length rs)) = Ok os /\ length os = length rs /\
    forall i o, nth_error os i = Some o ->
      let h := firstn (S i) rs in
      match bp_ratio l1 h, bp_ratio l2 h, bp_ratio l3 h with
      | Some fast, Some mid, Some slow =>
          o = Some (Fin (100 * (4 * fast + 2 * mid + slow) / 7)) /\
          (Forall consistent h -> 0 <= 100 * (4 * fast + 2 * mid + slow) / 7 <= 100)
      | _, _, _ => o = None
      end.
  Proof.
    intros L1 L2 L3 H. pose proof (uo_run l1 l2 l3 c _ L1 L2 L3 H) as R. rewrite map_length in R. rewrite R.
    eexists; split; [reflexivity|]. split; [rewrite length_each_prefix, map_length; reflexivity|].
    intros i o Ho h. apply nth_each in Ho. destruct Ho as [Hi ->]. rewrite map_length in Hi. rewrite firstn_map. fold h.
    assert (N : h <> []) by (subst h; destruct rs; [cbn in Hi; lia|discriminate]).
    unfold uo_out. rewrite !uo_ratio_exact by assumption.
    destruct (bp_ratio l1 h) as [f|] eqn:E1, (bp_ratio l2 h) as [m|] eqn:E2, (bp_ratio l3 h) as [s|] eqn:E3; try reflexivity.
    cbn [option_map uo_value]. rewrite !fin_Z, !fin_mul, !fin_add, fin_mul, fin_div by lra. split; [reflexivity|].
    intros C. pose proof (bp_ratio_range _ _ _ C E1). pose proof (bp_ratio_range _ _ _ C E2). pose proof (bp_ratio_range _ _ _ C E3).
    unfold Rdiv. lra.
  Qed.
End C56x.
Example C56_ex : gives same_opt (run_new (uo_new 1 2 3) uo_step ctx6 (ticks 5))
  [None; None; None;
   Some (fdiv (fmul (q 100) (fadd (fadd (fmul (q 4) (fdiv (q 1) (q 5))) (fmul (q 2) (fdiv (q 1) (q 8)))) (fdiv (q 4) (q 12)))) (q 7));
   Some (fdiv (fmul (q 100) (fadd (fadd (fmul (q 4) (fdiv (q 3) (q 4))) (fmul (q 2) (fdiv (q 4) (q 9)))) (fdiv (q 4) (q 12)))) (q 7))] = true.
Proof. vm_compute. reflexivity. Qed.
Example C56_hyp_ex : consistent (mkRB 10 12 9 11 100). Proof. unfold consistent; cbn; lra. Qed.

(** ** C57 *)
Section C57.
  Context {F : Type} {NF : Num F}.
  Local Open Scope num_scope.
  (** Directional movement of the bar [b] after the bar [p]: the larger of the
      upward and the downward extension, if positive, goes to its side. *)
  Definition up_move (p b : bar F) : option F :=
    match b_high p, b_high b, b_low p, b_low b with
    | Some ph, Some h, Some pl, Some l => Some (if (pl - l <? h - ph) && (fZ 0 <? h - ph) then h - ph else fZ 0)
    | _, _, _, _ => None
    end.
  Definition down_move (p b : bar F) : option F :=
    match b_high p, b_high b, b_low p, b_low b with
    | Some ph, Some h, Some pl, Some l => Some (if (h - ph <? pl - l) && (fZ 0 <? pl - l) then pl - l else fZ 0)
    | _, _, _, _ => None
    end.
  (** [|p - m| / (p + m)] (zero over zero if [p = -m]). *)
  Definition directional_index (p m : option F) : option F :=
    match p, m with
    | Some p, Some m => Some (fabs (p - m) / (if p ==? - m then fZ 0 else p + m))
    | _, _ => None
    end.
  Definition in_percent (o : option F) : option F := option_map (fun x => x * fZ 100) o.
  Lemma snoc2 {A} (t : list A) a b : t ++ [a; b] = (t ++ [a]) ++ [b].
  Proof. rewrite <- app_assoc. reflexivity. Qed.
  Lemma up_each (bs : list (bar F)) : with_prev_bar up_move bs = each_prefix plus_dm bs.
  Proof.
    apply with_prev_bar_each.
    - intros a. change [a] with ([] ++ [a]). unfold plus_dm, dm_up, dm_down. rewrite !cur_snoc, !prv_snoc. cbn [cur newest length nth_error Nat.sub obind ps_diff dmi_plus_dm]. destruct (b_high a); reflexivity.
    - intros t a b. rewrite snoc2. unfold plus_dm, dm_up, dm_down. rewrite !prv_snoc, !cur_snoc. unfold up_move.
      destruct (b_high a), (b_high b), (b_low a), (b_low b); try reflexivity. cbn [ps_diff dmi_plus_dm]. unfold fgtb. destruct (_ && _); reflexivity.
  Qed.
  Lemma down_each (bs : list (bar F)) : with_prev_bar down_move bs = each_prefix minus_dm bs.
  Proof.
    apply with_prev_bar_each.
    - intros a. change [a] with ([] ++ [a]). unfold minus_dm, dm_up, dm_down. rewrite !cur_snoc, !prv_snoc. cbn [cur newest length nth_error Nat.sub obind ps_diff dmi_minus_dm]. destruct (b_high a); reflexivity.
    - intros t a b. rewrite snoc2. unfold minus_dm, dm_up, dm_down. rewrite !prv_snoc, !cur_snoc. unfold down_move.
      destruct (b_high a), (b_high b), (b_low a), (b_low b); try reflexivity. cbn [ps_diff dmi_minus_dm]. unfold fgtb. destruct (_ && _); reflexivity.
  Qed.
  Theorem C57_dmi len lensig (c : ctx F) bs : (1 <= len)%nat -> (1 <= lensig)%nat -> fresh_over c bs -> Forall has_hlc bs ->
    exists trs ts ps ms pd md adx os,
      run tr_step c false (ticks (length bs)) = Ok trs /\
      run_new (rma_new len) rma_step c trs = Ok ts /\
      run_new (rma_new len) rma_step c (with_prev_bar up_move bs) = Ok ps /\
      run_new (rma_new len) rma_step c (with_prev_bar down_move bs) = Ok ms /\
      run fixnan_step c fixnan_new (map in_percent (zip quot ps ts)) = Ok pd /\
      run fixnan_step c fixnan_new (map in_percent (zip quot ms ts)) = Ok md /\
      run_new (rma_new lensig) rma_step c (zip directional_index pd md) = Ok adx /\
      run_new (dmi_new len lensig) dmi_step c (ticks (length bs)) = Ok os /\
      os = zip3 (fun p m a => (p, m, a)) pd md (map in_percent adx).
  Proof.
    intros L1 L2 H A. pose proof (Forall_hlc_hl bs A) as A'.
    rewrite (dmi_run len lensig c bs L1 L2 H A), (tr_run false c bs H A'), up_each, down_each.
    eexists. eexists. eexists. eexists. eexists. eexists. eexists. eexists. split; [reflexivity|].
    rewrite !(makes_run _ _ _ _ c _ (rma_makes len L1)).
    2: apply (dm_warmed dmi_minus_dm); [intros u d E; cbn in E; destruct (_ && _) in E; discriminate|exact A'].
    2: apply (dm_warmed dmi_plus_dm); [intros u d E; cbn in E; destruct (_ && _) in E; discriminate|exact A'].
    2: apply tr_out_warmed_false; exact A.
    rewrite !each_prefix_each_prefix. do 3 (split; [reflexivity|]).
    rewrite !zip_each, !each_prefix_map, !fixnan_run, !each_prefix_each_prefix. do 2 (split; [reflexivity|]).
    rewrite zip_each. rewrite (makes_run _ _ _ _ c _ (rma_makes lensig L2)), each_prefix_each_prefix.
    2: apply (dx_warmed len).
    split; [reflexivity|]. split; [reflexivity|]. rewrite each_prefix_map, zip3_each. reflexivity.
  Qed.
End C57.
Section C57o.
  Context {F : Type} {NF : Num F} {OF : OrdNum F}.
  Local Open Scope num_scope.
  (** At most one of the two movements of a bar is non-zero, and neither is
      negative (f64 included). *)
  Theorem C57_one_direction (p b : bar F) u d : up_move p b = Some u -> down_move p b = Some d ->
    (u = fZ 0 \/ d = fZ 0) /\ (fZ 0 <=? u) = true /\ (fZ 0 <=? d) = true.
  Proof.
    unfold up_move, down_move. destruct (b_high p) as [ph|], (b_high b) as [h|], (b_low p) as [pl|], (b_low b) as [l|]; try discriminate.
    intros E1 E2. injection E1 as <-. injection E2 as <-.
    assert (Z0 : (fZ 0 <=? fZ 0) = true) by (rewrite le_fZ by lia; reflexivity).
    destruct (pl - l <? h - ph) eqn:A, (fZ 0 <? h - ph) eqn:B, (h - ph <? pl - l) eqn:C, (fZ 0 <? pl - l) eqn:D; cbn [andb];
      try (apply lt_asym in A; congruence); repeat split; auto using lt_le.
  Qed.
End C57o.
Section C57x.
  Local Open Scope R_scope.
  Definition Rup (p r : rbar5) : R :=
    if Rlt_dec (rl p - rl r) (rh r - rh p) then if Rlt_dec 0 (rh r - rh p) then rh r - rh p else 0 else 0.
  Definition Rdown (p r : rbar5) : R :=
    if Rlt_dec (rh r - rh p) (rl p - rl r) then if Rlt_dec 0 (rl p - rl r) then rl p - rl r else 0 else 0.
  Definition on_pairs (f : rbar5 -> rbar5 -> R) (h : list rbar5) : list R := map (fun p => f (fst p) (snd p)) (pairs h).
  (** 100 * smoothed movement / smoothed true range, where that is defined, *)
  Definition di_now (f : rbar5 -> rbar5 -> R) (len : nat) (h : list rbar5) : option R :=
    match Rsmooth (1 / INR len) len (on_pairs f h), Rsmooth (1 / INR len) len (on_pairs Rtr h) with
    | Some m, Some t => if Req_EM_T t 0 then None else Some (100 * m / t)
    | _, _ => None
    end.
  (** its last defined value, *)
  Definition di (f : rbar5 -> rbar5 -> R) (len : nat) (h : list rbar5) : option R := newest (present (each_prefix (di_now f len) h)).
  (** and the directional index. *)
  Definition dx (len : nat) (h : list rbar5) : option R :=
    match di Rup len h, di Rdown len h with Some p, Some m => Some (Rabs (p - m) / (p + m)) | _, _ => None end.

  Lemma dm_series (k : list (bar xr) -> option xr) (g : rbar5 -> rbar5 -> R) h : h <> [] ->
    (forall a, k [bar_of a] = None) -> (forall t a b, k (map bar_of (t ++ [a; b])) = Some (Fin (g a b))) ->
    each_prefix k (map bar_of h) = warm 1 (map Fin (on_pairs g h)).
  Proof.
    intros N H1 H2. rewrite each_prefix_of_map, (each_pairs _ (fun a b => Fin (g a b)) h N); [unfold on_pairs; rewrite map_map; reflexivity|exact H1|exact H2].
  Qed.
  Lemma plus_series h : h <> [] -> each_prefix plus_dm (map bar_of h) = warm 1 (map Fin (on_pairs Rup h)).
  Proof.
    intros N. apply dm_series; [exact N|reflexivity|]. intros t a b. rewrite bar2. unfold plus_dm, dm_up, dm_down. rewrite !prv_snoc, !cur_snoc.
    cbn [bar_of b_high b_low ps_diff dmi_plus_dm]. unfold fgtb. rewrite !fin_sub, !fin_Z, !fin_lt. unfold Rup, Rltb.
    destruct (Rlt_dec (rl a - rl b) (rh b - rh a)), (Rlt_dec 0 (rh b - rh a)); reflexivity.
  Qed.
  Lemma minus_series h : h <> [] -> each_prefix minus_dm (map bar_of h) = warm 1 (map Fin (on_pairs Rdown h)).
  Proof.
    intros N. apply dm_series; [exact N|reflexivity|]. intros t a b. rewrite bar2. unfold minus_dm, dm_up, dm_down. rewrite !prv_snoc, !cur_snoc.
    cbn [bar_of b_high b_low ps_diff dmi_minus_dm]. unfold fgtb. rewrite !fin_sub, !fin_Z, !fin_lt. unfold Rdown, Rltb.
    destruct (Rlt_dec (rh b - rh a) (rl a - rl b)), (Rlt_dec 0 (rl a - rl b)); reflexivity.
  Qed.
  Lemma dmi_rma_exact len k g h : (1 <= len)%nat -> each_prefix k (map bar_of h) = warm 1 (map Fin (on_pairs g h)) ->
    dmi_rma len k (map bar_of h) = option_map Fin (Rsmooth (1 / INR len) len (on_pairs g h)).
  Proof. intros L E. unfold dmi_rma. rewrite E. unfold ema_out. rewrite present_warm. apply rma_exact; exact L. Qed.
  Lemma di_now_exact len k g h : (1 <= len)%nat -> h <> [] -> each_prefix k (map bar_of h) = warm 1 (map Fin (on_pairs g h)) ->
    dmi_raw len k (map bar_of h) = option_map Fin (di_now g len h).
  Proof.
    intros L N E. unfold dmi_raw, di_now. rewrite (dmi_rma_exact len k g h L E), (dmi_rma_exact len (tr_out false) Rtr h L (tr_series_false h N)).
    destruct (Rsmooth (1 / INR len) len (on_pairs g h)) as [m|], (Rsmooth (1 / INR len) len (on_pairs Rtr h)) as [t|]; try reflexivity.
    cbn [option_map ps_div]. rewrite fin_Z, fin_eq. destruct (Reqb_spec t 0), (Req_EM_T t 0); try contradiction; [reflexivity|].
    rewrite fin_div by assumption. cbn [times100 option_map]. rewrite fin_Z, fin_mul. do 2 f_equal. unfold Rdiv. ring.
  Qed.
  Lemma each_prefix_ext_in {A B} (f g : list A -> B) xs : (forall p, p <> [] -> f p = g p) -> each_prefix f xs = each_prefix g xs.
  Proof. intros H. unfold each_prefix. apply map_ext_in. intros p I. apply H. exact (nonnil_prefix _ _ I). Qed.
  Lemma di_exact len k g h : (1 <= len)%nat -> (forall h, h <> [] -> each_prefix k (map bar_of h) = warm 1 (map Fin (on_pairs g h))) ->
    dmi_di len k (map bar_of h) = option_map Fin (di g len h).
  Proof.
    intros L E. unfold dmi_di, di, last_present. rewrite each_prefix_of_map.
    rewrite (each_prefix_ext_in _ (fun p => option_map Fin (di_now g len p))) by (intros p N; apply di_now_exact; auto).
    rewrite <- each_prefix_map. change (map (option_map Fin) (each_prefix (di_now g len) h)) with (lift (each_prefix (di_now g len) h)).
    rewrite lift_present. apply newest_map.
  Qed.
  Lemma Rup_range p r : consistent p -> 0 <= Rup p r <= Rtr p r.
  Proof.
    intros [_ C]. pose proof (Rtr_nonneg p r). unfold Rup. destruct (Rlt_dec _ _); [|lra]. destruct (Rlt_dec _ _); [|lra]. split; [lra|].
    unfold Rtr. apply Rle_trans with (2 := Rmax_l _ _). apply Rle_trans with (2 := Rmax_r _ _). apply Rle_trans with (2 := Rle_abs _). lra.
  Qed.
  Lemma Rdown_range p r : consistent p -> 0 <= Rdown p r <= Rtr p r.
  Proof.
    intros [_ C]. pose proof (Rtr_nonneg p r). unfold Rdown. destruct (Rlt_dec _ _); [|lra]. destruct (Rlt_dec _ _); [|lra]. split; [lra|].
    unfold Rtr. apply Rle_trans with (2 := Rmax_r _ _). rewrite Rabs_minus_sym. apply Rle_trans with (2 := Rle_abs _). lra.
  Qed.
  Lemma Rup_nonneg p r : 0 <= Rup p r.
  Proof. unfold Rup. destruct (Rlt_dec _ _); [|lra]. destruct (Rlt_dec _ _); lra. Qed.
  Lemma Rdown_nonneg p r : 0 <= Rdown p r.
  Proof. unfold Rdown. destruct (Rlt_dec _ _); [|lra]. destruct (Rlt_dec _ _); lra. Qed.
  Lemma on_pairs_nonneg f h : (forall p r, 0 <= f p r) -> Forall (fun x => 0 <= x) (on_pairs f h).
  Proof. intros H. apply Forall_forall. intros x I. apply in_map_iff in I. destruct I as (p & <- & _). apply H. Qed.
  (** smoothing is monotone. *)
  Lemma Rsum_le2 {A} (f g : A -> R) w : (forall x, In x w -> f x <= g x) -> Rsum (map f w) <= Rsum (map g w).
  Proof. induction w as [|x w IH]; intros H; cbn; [lra|]. pose proof (H x (or_introl eq_refl)). assert (Q := IH (fun y I => H y (or_intror I))). lra. Qed.
  Lemma Rsmooth_mono {A} (f g : A -> R) alpha len w a b : (1 <= len)%nat -> 0 <= alpha <= 1 -> (forall x, In x w -> f x <= g x) ->
    Rsmooth alpha len (map f w) = Some a -> Rsmooth alpha len (map g w) = Some b -> a <= b.
  Proof.
    intros L AL H. unfold Rsmooth. rewrite !map_length. destruct (length w <? len)%nat eqn:E; [discriminate|]. apply Nat.ltb_ge in E.
    intros E1 E2. injection E1 as <-. injection E2 as <-. rewrite !firstn_map, !skipn_map.
    assert (M : Rmean (map f (firstn len w)) <= Rmean (map g (firstn len w))).
    { unfold Rmean. rewrite !map_length. apply Rmult_le_compat_r.
      - apply Rlt_le, Rinv_0_lt_compat, PExact.INR_pos. rewrite firstn_length. lia.
      - apply Rsum_le2. intros x I. apply H. exact (firstn_In _ _ _ I). }
    revert M. generalize (Rmean (map f (firstn len w))), (Rmean (map g (firstn len w))).
    assert (H' : forall x, In x (skipn len w) -> f x <= g x) by (intros x I; apply H; exact (skipn_In _ _ _ I)).
    induction (skipn len w) as [|x t IH]; intros u v M; [exact M|]. cbn [map fold_left]. apply IH; [intros y I; apply H'; right; exact I|].
    pose proof (H' x (or_introl eq_refl)). apply Rplus_le_compat; apply Rmult_le_compat_l; lra.
  Qed.
  Lemma present_In {A} (x : A) l : In x (present l) -> In (Some x) l.
  Proof. induction l as [|[y|] l IH]; cbn; [tauto| |]; intros I; [destruct I as [->|I]; auto|auto]. Qed.
  Lemma newest_In {A} (l : list A) x : newest l = Some x -> In x l.
  Proof. apply nth_error_In. Qed.
  Lemma di_from f len h d : di f len h = Some d -> exists j, (j < length h)%nat /\ di_now f len (firstn (S j) h) = Some d.
  Proof.
    intros E. apply newest_In, present_In in E. unfold each_prefix in E. apply in_map_iff in E. destruct E as (p & E & I).
    apply in_prefixes in I. destruct I as (j & J & ->). eauto.
  Qed.
  Lemma di_nonneg f len h d : (1 <= len)%nat -> (forall p r, 0 <= f p r) -> di f len h = Some d -> 0 <= d.
  Proof.
    intros L P E. apply di_from in E. destruct E as (j & _ & E). unfold di_now in E.
    destruct (Rsmooth _ len (on_pairs f _)) as [m|] eqn:M; [|discriminate]. destruct (Rsmooth _ len (on_pairs Rtr _)) as [t|] eqn:T; [|discriminate].
    destruct (Req_EM_T t 0); [discriminate|]. injection E as <-.
    apply Rsmooth_nonneg in M; [|exact L|apply inv_len_range; exact L|apply on_pairs_nonneg; exact P].
    apply Rsmooth_nonneg in T; [|exact L|apply inv_len_range; exact L|apply on_pairs_nonneg; exact Rtr_nonneg].
    apply Rmult_le_pos; [lra|]. apply Rlt_le, Rinv_0_lt_compat. lra.
  Qed.
  Lemma di_le_100 f len h d : (1 <= len)%nat -> (forall p r, consistent p -> 0 <= f p r <= Rtr p r) -> (forall p r, 0 <= f p r) -> Forall consistent h ->
    di f len h = Some d -> 0 <= d <= 100.
  Proof.
    intros L P P' C E. split; [exact (di_nonneg f len h d L P' E)|]. apply di_from in E. destruct E as (j & _ & E). unfold di_now in E.
    destruct (Rsmooth _ len (on_pairs f _)) as [m|] eqn:M; [|discriminate]. destruct (Rsmooth _ len (on_pairs Rtr _)) as [t|] eqn:T; [|discriminate].
    destruct (Req_EM_T t 0); [discriminate|]. injection E as <-.
    pose proof T as T'. apply Rsmooth_nonneg in T'; [|exact L|apply inv_len_range; exact L|apply on_pairs_nonneg; exact Rtr_nonneg].
    assert (MT : m <= t).
    { refine (Rsmooth_mono _ _ _ len _ m t L (inv_len_range len L) _ M T). intros p I. apply P.
      apply (in_pairs consistent) in I; [apply I|]. apply Forall_forall. intros x Ix. rewrite Forall_forall in C. apply C. exact (firstn_In _ _ _ Ix). }
    unfold Rdiv. apply (Rmult_le_reg_r t); [lra|]. rewrite Rmult_assoc, Rinv_l by assumption. lra.
  Qed.
  Theorem C57_di len lensig (c : ctx xr) rs : (1 <= len)%nat -> (1 <= lensig)%nat -> fresh_over c (map bar_of rs) ->
    exists os, run_new (dmi_new len lensig) dmi_step c (ticks (length rs)) = Ok os /\ length os = length rs /\
    forall i o, nth_error os i = Some o ->
      let h := firstn (S i) rs in
      fst (fst o) = option_map Fin (di Rup len h) /\ snd (fst o) = option_map Fin (di Rdown len h) /\
      (forall p, di Rup len h = Some p -> 0 <= p /\ (Forall consistent h -> p <= 100)) /\
      (forall m, di Rdown len h = Some m -> 0 <= m /\ (Forall consistent h -> m <= 100)).
  Proof.
    intros L1 L2 H. pose proof (dmi_run len lensig c _ L1 L2 H (full_has_hlc rs)) as R. rewrite map_length in R. rewrite R.
    eexists; split; [reflexivity|]. split; [rewrite length_each_prefix, map_length; reflexivity|].
    intros i o Ho h. apply nth_each in Ho. destruct Ho as [Hi ->]. rewrite firstn_map. fold h. unfold dmi_out. cbn [fst snd].
    rewrite (di_exact len plus_dm Rup h L1 plus_series), (di_exact len minus_dm Rdown h L1 minus_series).
    repeat split; auto.
    - exact (di_nonneg Rup len h p L1 Rup_nonneg H0).
    - intros C. exact (proj2 (di_le_100 Rup len h p L1 Rup_range Rup_nonneg C H0)).
    - exact (di_nonneg Rdown len h m L1 Rdown_nonneg H0).
    - intros C. exact (proj2 (di_le_100 Rdown len h m L1 Rdown_range Rdown_nonneg C H0)).
  Qed.
  (** *** ADX *)
  Lemma nan_mul (x : xr) : fmul x XNaN = XNaN. Proof. destruct x; reflexivity. Qed.
  Lemma nan_add (x : xr) : fadd x XNaN = XNaN. Proof. destruct x; reflexivity. Qed.
  Lemma add_nan (x : xr) : fadd XNaN x = XNaN. Proof. destruct x; reflexivity. Qed.
  Lemma nan_div (x : xr) : fdiv XNaN x = XNaN. Proof. destruct x; reflexivity. Qed.
  Lemma xnan_fold alpha l : fold_left (fun e v : xr => fadd (fmul alpha v) (fmul (fsub (fZ 1) alpha) e)) l XNaN = XNaN.
  Proof.
    induction l as [|x l IH]; [reflexivity|]. cbn [fold_left]. rewrite nan_mul, nan_add. exact IH.
  Qed.
  Lemma xnan_sum l a : In XNaN l \/ a = XNaN -> fold_left fadd l a = (XNaN : xr).
  Proof.
    revert a. induction l as [|x l IH]; intros a [I|E]; [destruct I|exact E| |]; cbn [fold_left]; apply IH.
    - destruct I as [->|I]; [right|left; exact I]. apply nan_add.
    - right. subst a. apply add_nan.
  Qed.
  Definition unit_or_nan (x : xr) : Prop := x = XNaN \/ exists r, x = Fin r /\ 0 <= r <= 1.
  Lemma all_fin (l : list xr) : Forall unit_or_nan l -> (exists vs, l = map Fin vs /\ all_in 0 1 vs) \/ In XNaN l.
  Proof.
    induction 1 as [|x l [->|(r & -> & B)] F IH]; [left; exists []; split; [reflexivity|constructor]|right; left; reflexivity|].
    destruct IH as [(vs & -> & A)|I]; [left; exists (r :: vs); split; [reflexivity|constructor; assumption]|right; right; exact I].
  Qed.
  Lemma ema_unit len l e : (1 <= len)%nat -> Forall unit_or_nan l -> ema_val (rma_alpha_of len) len l = Some e -> unit_or_nan e.
  Proof.
    intros L F E. destruct (all_fin l F) as [(vs & -> & A)|I].
    - rewrite rma_exact in E by exact L. destruct (Rsmooth (1 / INR len) len vs) as [r|] eqn:S; [|discriminate].
      injection E as <-. right. exists r. split; [reflexivity|]. exact (Rsmooth_in _ _ _ _ _ _ L (inv_len_range len L) A S).
    - unfold ema_val in E. destruct (len =? 1)%nat; [apply newest_In in E; rewrite Forall_forall in F; apply F; exact E|].
      destruct (length l <? len)%nat; [discriminate|]. injection E as <-.
      rewrite <- (firstn_skipn len l) in I. rewrite in_app_iff in I. destruct I as [I|I].
      + unfold fsum. rewrite xnan_sum by (left; exact I). left.
        rewrite nan_div. apply xnan_fold.
      + left. apply in_split in I. destruct I as (l1 & l2 & ->). rewrite fold_left_app. cbn [fold_left].
        rewrite nan_mul, add_nan. apply xnan_fold.
  Qed.
  Lemma dx_unit len h x : (1 <= len)%nat -> dmi_dx_of len (map bar_of h) = Some x ->
    unit_or_nan x /\ (forall p m, di Rup len h = Some p -> di Rdown len h = Some m -> (x = XNaN <-> p = 0 /\ m = 0)) /\ (x <> XNaN -> option_map Fin (dx len h) = Some x).
  Proof.
    intros L. unfold dmi_dx_of, dx. rewrite (di_exact len plus_dm Rup h L plus_series), (di_exact len minus_dm Rdown h L minus_series).
    destruct (di Rup len h) as [p|] eqn:P, (di Rdown len h) as [m|] eqn:M; try discriminate. cbn [option_map dmi_dx]. intros E. apply some_inj in E. subst x.
    apply di_nonneg in P; [|exact L|exact Rup_nonneg]. apply di_nonneg in M; [|exact L|exact Rdown_nonneg].
    rewrite fin_neg, fin_eq, fin_sub, fin_abs, fin_add, fin_Z. destruct (Reqb_spec p (- m)) as [E|E].
    - assert (P0 : p = 0) by lra. assert (M0 : m = 0) by lra. clear E. subst p m. rewrite Rminus_diag_eq, Rabs_R0 by reflexivity. rewrite fin_div0. unfold rsgn.
      destruct (Rlt_dec 0 0); [lra|]. cbn [xinf]. split; [left; reflexivity|]. split; [|congruence]. intros p m E1 E2. injection E1 as <-. injection E2 as <-. tauto.
    - rewrite fin_div by lra. split; [|split].
      + right. eexists. split; [reflexivity|]. apply ratio_pos; [|lra]. split; [apply Rabs_pos|]. apply Rabs_le. lra.
      + intros p' m' E1 E2. injection E1 as <-. injection E2 as <-. split; [discriminate|]. intros [-> ->]. exfalso. apply E. lra.
      + reflexivity.
  Qed.
  Theorem C57_adx len lensig (c : ctx xr) rs : (1 <= len)%nat -> (1 <= lensig)%nat -> fresh_over c (map bar_of rs) ->
    exists os, run_new (dmi_new len lensig) dmi_step c (ticks (length rs)) = Ok os /\ length os = length rs /\
    forall i o, nth_error os i = Some o ->
      let h := firstn (S i) rs in
      (** as long as there was some directional movement: *)
      ((forall j p m, (j <= i)%nat -> di Rup len (firstn (S j) rs) = Some p -> di Rdown len (firstn (S j) rs) = Some m -> p + m <> 0) ->
         snd o = option_map (fun e => Fin (100 * e)) (Rsmooth (1 / INR lensig) lensig (present (each_prefix (dx len) h)))) /\
      (forall a, snd o = Some a -> a = XNaN \/ exists r, a = Fin r /\ 0 <= r <= 100).
  Proof.
    intros L1 L2 H. pose proof (dmi_run len lensig c _ L1 L2 H (full_has_hlc rs)) as R. rewrite map_length in R. rewrite R.
    eexists; split; [reflexivity|]. split; [rewrite length_each_prefix, map_length; reflexivity|].
    intros i o Ho h. apply nth_each in Ho. destruct Ho as [Hi ->]. rewrite map_length in Hi. rewrite firstn_map. fold h. unfold dmi_out. cbn [snd]. unfold ema_out.
    rewrite each_prefix_of_map.
    assert (LH : length h = S i) by (subst h; rewrite firstn_length; lia).
    split.
    - intros NZ.
      assert (E : each_prefix (fun p => dmi_dx_of len (map bar_of p)) h = lift (each_prefix (dx len) h)).
      { unfold lift. rewrite each_prefix_map. unfold each_prefix. apply map_ext_in. intros p I. apply in_prefixes in I. destruct I as (j & J & ->).
        rewrite LH in J. replace (firstn (S j) h) with (firstn (S j) rs) by (subst h; rewrite firstn_firstn; f_equal; lia).
        specialize (NZ j). destruct (dmi_dx_of len (map bar_of (firstn (S j) rs))) as [x|] eqn:X.
        - destruct (dx_unit len _ x L1 X) as (_ & N & V). symmetry. apply V. intros ->.
          unfold dmi_dx_of in X. rewrite (di_exact len plus_dm Rup _ L1 plus_series), (di_exact len minus_dm Rdown _ L1 minus_series) in X.
          destruct (di Rup len (firstn (S j) rs)) as [p|] eqn:P, (di Rdown len (firstn (S j) rs)) as [m|] eqn:M; try discriminate X.
          destruct (proj1 (N p m eq_refl eq_refl) eq_refl) as [-> ->]. apply (NZ 0 0); [lia|reflexivity|reflexivity|lra].
        - unfold dmi_dx_of in X. rewrite (di_exact len plus_dm Rup _ L1 plus_series), (di_exact len minus_dm Rdown _ L1 minus_series) in X. unfold dx.
          destruct (di Rup len (firstn (S j) rs)), (di Rdown len (firstn (S j) rs)); try discriminate X; reflexivity. }
      rewrite E, lift_present, rma_exact by exact L2. destruct (Rsmooth _ lensig _) as [e|]; [|reflexivity].
      cbn [option_map times100]. rewrite fin_Z, fin_mul. do 2 f_equal. ring.
    - intros a E. unfold times100 in E. destruct (ema_val _ lensig _) as [e|] eqn:EV; [|discriminate E]. cbn [option_map] in E. apply some_inj in E. subst a.
      apply ema_unit in EV; [|exact L2|].
      + destruct EV as [->|(r & -> & B)]; [left; reflexivity|right]. rewrite fin_Z, fin_mul. eexists. split; [reflexivity|]. lra.
      + apply Forall_forall. intros x I. apply present_In in I. unfold each_prefix in I. apply in_map_iff in I. destruct I as (p & E & _).
        apply dx_unit in E; [|exact L1]. apply E.
  Qed.
End C57x.
Example C57_ex : gives (fun a b => same_opt (fst (fst a)) (fst (fst b)) && same_opt (snd (fst a)) (snd (fst b)) && same_opt (snd a) (snd b))
    (run_new (dmi_new 1 1) dmi_step ctx6 (ticks 4))
    [(None, None, None); (Some (q 50), Some (q 0), Some (q 100)); (Some (fmul (fdiv (q 1) (q 3)) (q 100)), Some (q 0), Some (q 100));
     (Some (q 0), Some (q 80), Some (q 100))] = true.
Proof. vm_compute. reflexivity. Qed.
Example C57_hyp_ex : Forall has_hlc bars6 /\ fresh_over ctx6 bars6.
Proof. split; [|exact ctx6_fresh]. repeat constructor; discriminate. Qed.
(** The NaN case of [C57_adx] is real, and lasts: bars without any directional
    movement make every later ADX a NaN. *)
Definition stuck_then_rising : list (bar f64) := map qbar
  [(10, 12, 9, 11, 1); (10, 12, 9, 11, 1); (10, 12, 9, 11, 1); (13, 15, 12, 14, 1); (14, 17, 13, 16, 1); (16, 19, 15, 18, 1)]%Z.
Definition nan_at (o : option f64) : option bool := option_map fisnan o.
Example C57_adx_nan :
  match ctx_over stuck_then_rising with
  | Ok c => match run_new (dmi_new 2 2) dmi_step c (ticks 6) with
            | Ok os => (map (fun o => nan_at (snd o)) os, map (fun o => nan_at (fst (fst o))) os)
            | Panic => ([], [])
            end
  | Panic => ([], [])
  end = ([None; None; None; Some true; Some true; Some true], [None; None; Some false; Some false; Some false; Some false]).
Proof. vm_compute. reflexivity. Qed.
