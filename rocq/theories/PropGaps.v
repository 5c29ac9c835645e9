(** * PropGaps: further theorems for C05, C11, C48, C49, C61 and C87. *)
From Verif Require Export PropCore PropTa1 PropContent1 PropContent4 PropExtra.
From Verif Require Import PTa2 PTa4 PPipe Inst.
Local Open Scope nat_scope.

(** ** C05: a window of length 0 is always full, always empty, and has no first value. *)
Theorem C05_length_zero {T : Type} (xs : list T) :
  let w := fold_left wc_push xs (wc_new 0) in
  wc_all w = [] /\ wc_is_filled w = true /\ wc_first w = Panic /\ wc_last w = newest xs /\ wc_size w = length xs.
Proof.
  intros w. assert (E : w = mkWC 0 xs) by (unfold w, wc_new; apply wc_pushes). rewrite E.
  split; [unfold wc_all; cbn; rewrite Nat.sub_0_r; apply skipn_all|]. split; [reflexivity|]. split; [reflexivity|]. split; [apply wc_last_newest|reflexivity].
Qed.

(** ** C11: any weight. *)
Section C11w.
  Context {F : Type} {NF : Num F}.
  Theorem C11_with_alpha len alpha (c : ctx F) xs os : 2 <= len ->
    run_new (ema_with_alpha len alpha) ema_step c xs = Ok os ->
    exists ms, run_new (sma_new len) sma_step c xs = Ok ms /\ follows alpha ms xs os.
  Proof. apply ema_follows. Qed.
  Theorem C11_with_alpha_panics len alpha (c : ctx F) xs : 2 <= len ->
    (run_new (ema_with_alpha len alpha) ema_step c xs = Panic <->
     exists i j w, i < j /\ window len (firstn (S i) xs) = Some w /\ nth_error xs j = Some None).
  Proof. apply ema_panics. Qed.
  Theorem C11_with_alpha_one alpha (c : ctx F) xs : run_new (ema_with_alpha 1 alpha) ema_step c xs = Ok xs.
  Proof. rewrite ema_with_alpha_run by lia. reflexivity. Qed.
End C11w.
Example C11_with_alpha_ex : gives same_opt (run_new (ema_with_alpha 2 (fZ 1 / fZ 4)%num) ema_step ctx6 (qs [0; 8; 4; 8]%Z))
  [None; Some (q 4); Some (q 4); Some (q 5)] = true.
Proof. vm_compute. reflexivity. Qed.

(** ** C48: the public data of the Aroon strategy. *)
Section C48d.
  Context {F : Type} {NF : Num F}.
  Local Open Scope num_scope.
  Lemma aroons_state c xs x s os : run_st aroons_step c aroons_new (xs ++ [x]) = Ok (s, os) ->
    as_up s = aroon_strength (fst x) (snd x) /\ as_down s = aroon_strength (snd x) (fst x).
  Proof.
    rewrite run_st_app. intros E. destruct (run_st aroons_step c aroons_new xs) as [[s1 o1]|]; [|discriminate].
    cbn [rbind run_st] in E. unfold aroons_step at 1 in E.
    destruct (cross_step _ _ _) as [[cr m]|]; [|discriminate]. cbn [rbind] in E.
    destruct (if is_some m then true else as_cross_mode s1) eqn:A.
    - destruct (fgeb (aroon_strength (fst x) (snd x)) (fZ 1)); [|destruct (fgeb (aroon_strength (snd x) (fst x)) (fZ 1))];
        cbn [rbind] in E; injection E as <- _; split; reflexivity.
    - cbn [rbind] in E; injection E as <- _; split; reflexivity.
  Qed.
  (** The cross mode after a bar: a cross is pending and this bar emitted nothing. *)
  Theorem C48_cross_mode (c : ctx F) xs s os : run_st aroons_step c aroons_new xs = Ok (s, os) ->
    (as_cross_mode s = true <-> exists i, length xs = S i /\ pending xs os i /\ nth_error os i = Some None).
  Proof.
    intros E. assert (O : os = each_prefix aout xs).
    { pose proof (aroons_run c xs) as R. unfold run in R. rewrite E in R. cbn in R. congruence. } subst os.
    destruct xs as [|x h _] using rev_ind.
    { cbn in E. injection E as <-. split; [discriminate|]. intros (i & L & _). discriminate. }
    assert (M : as_cross_mode s = apend (rev (h ++ [x]))).
    { destruct cross_makes as (s0 & E0 & B). injection E0 as <-. specialize (B c).
      assert (INV : forall l s os, run_st aroons_step c aroons_new l = Ok (s, os) ->
        reach cross_step c cross_new (map sw l) (as_cross s) /\ as_cross_mode s = apend (rev l)).
      { clear E s. intros l. induction l as [|y l IH] using rev_ind; intros s os E.
        { cbn in E. injection E as <- <-. split; [apply reach_nil|reflexivity]. }
        rewrite run_st_app in E. destruct (run_st aroons_step c aroons_new l) as [[s1 o1]|]; [|discriminate].
        destruct (IH _ _ eq_refl) as [R M].
        destruct (reach_step _ _ _ _ _ _ _ (sw y) B I R) as (cr & E' & R'). rewrite map_length in E'.
        cbn [rbind run_st] in E. unfold aroons_step at 1 in E. change (snd y, fst y) with (sw y) in E. rewrite E' in E. cbn [rbind] in E.
        change (map sw l ++ [sw y]) with (map sw l ++ map sw [y]) in *. rewrite <- map_app in *.
        change (fgeb (aroon_strength (fst y) (snd y)) (fZ 1)) with (str y) in E.
        change (fgeb (aroon_strength (snd y) (fst y)) (fZ 1)) with (str (sw y)) in E. rewrite M in E.
        rewrite rev_app_distr. cbn [rev app apend]. rewrite rev_involutive.
        destruct (is_some (cross_out (map sw (l ++ [y])))) eqn:E1, (apend (rev l)) eqn:E2, (str y) eqn:E3, (str (sw y)) eqn:E4;
          cbn [rbind] in E; injection E as <- _; (split; [exact R'|]); cbn [as_cross_mode]; unfold cro; rewrite ?E1, ?E2, ?E3, ?E4; reflexivity. }
      exact (proj2 (INV _ _ _ E)). }
    rewrite M, rev_app_distr. cbn [rev app apend]. rewrite rev_involutive.
    set (i := length h). assert (L : (i < length (h ++ [x]))%nat) by (rewrite app_length; cbn; lia).
    assert (F1 : firstn (S i) (h ++ [x]) = h ++ [x]) by (apply firstn_all2; rewrite app_length; cbn; lia).
    assert (F0 : firstn i (h ++ [x]) = h) by (unfold i; rewrite firstn_app, Nat.sub_diag, firstn_all; cbn; apply app_nil_r).
    pose proof (pending_iff (h ++ [x]) i L) as P. rewrite F1, F0 in P.
    assert (O : nth_error (each_prefix aout (h ++ [x])) i =
       Some (if cro (h ++ [x]) || apend (rev h) then if str x then Some Long else if str (sw x) then Some Short else None else None)).
    { rewrite nth_error_each_prefix, F1 by exact L. unfold aout. rewrite rev_app_distr. reflexivity. }
    split.
    - intros H. apply andb_true_iff in H. destruct H as [H S2]. apply andb_true_iff in H. destruct H as [H S1].
      exists i. split; [rewrite app_length; cbn; unfold i; lia|]. split; [apply pending_sw, P, H|].
      rewrite O, H. apply negb_true_iff in S1, S2. rewrite S1, S2. reflexivity.
    - intros (j & J & Pj & Oj). assert (j = i) by (rewrite app_length in J; cbn in J; unfold i; lia). subst j.
      apply pending_sw, P in Pj. rewrite O, Pj in Oj. rewrite Pj.
      destruct (str x); [discriminate|]. destruct (str (sw x)); [discriminate|]. reflexivity.
  Qed.
End C48d.
(** How far a line is from 50 to 100, while the other one is below 50. *)
Definition Rstrength (a b : R) : R :=
  if Rlt_dec 50 a then if Rlt_dec b 50 then (a - 50) / 50 else 0%R else 0%R.
Theorem C48_strength (c : ctx xr) xs (up down : R) s os :
  run_st aroons_step c aroons_new (xs ++ [(Some (Fin up), Some (Fin down))]) = Ok (s, os) ->
  as_up s = Fin (Rstrength up down) /\ as_down s = Fin (Rstrength down up).
Proof.
  intros E. apply aroons_state in E. destruct E as [-> ->]. cbn [fst snd].
  assert (A : forall a b : R, aroon_strength (Some (Fin a)) (Some (Fin b)) = Fin (Rstrength a b)).
  { intros a b. unfold aroon_strength, Rstrength, fgtb. rewrite !fin_Z, !fin_lt, fin_sub, fin_div, fin_sub by lra.
    destruct (Rltb_spec 50 a), (Rlt_dec 50 a); try lra; [|reflexivity].
    destruct (Rltb_spec b 50), (Rlt_dec b 50); try lra; try reflexivity. cbn. f_equal. field. }
  split; apply A.
Qed.
Theorem C48_strength_missing {F} {NF : Num F} (c : ctx F) xs x s os :
  (fst x = None \/ snd x = None) -> run_st aroons_step c aroons_new (xs ++ [x]) = Ok (s, os) ->
  as_up s = fZ 0 /\ as_down s = fZ 0.
Proof.
  intros H E. apply aroons_state in E. destruct E as [-> ->]. unfold aroon_strength.
  destruct x as [[u|] [d|]]; cbn in *; destruct H; try discriminate; split; reflexivity.
Qed.
(** Both in [0,1] for Aroon lines (which lie in [0,100]), and at most one of them positive. *)
Theorem C48_strength_range (up down : R) : (0 <= up <= 100 -> 0 <= down <= 100 ->
  0 <= Rstrength up down <= 1 /\ 0 <= Rstrength down up <= 1 /\ (Rstrength up down = 0 \/ Rstrength down up = 0) /\
  (Rstrength up down = 1 <-> up = 100 /\ down < 50))%R.
Proof.
  intros U D. unfold Rstrength. destruct (Rlt_dec 50 up), (Rlt_dec down 50), (Rlt_dec 50 down), (Rlt_dec up 50); repeat split; try lra.
Qed.

(** ** C49 *)
Theorem C49_stoch_rsi_default {F} {NF : Num F} {OF : OrdNum F} (c : ctx F) kds :
  exists os, run srsi_strategy_step c srsi_strategy_default kds = Ok os /\
             threshold_signals (fZ 20) (fZ 80) (map fst kds) os.
Proof. apply C49_stoch_rsi_strategy. Qed.

(** ** C61: no change, no streak. *)
Theorem C61_streak_flat t (a : R) : streak (t ++ [a; a]) = 0%Z.
Proof. rewrite streak_snoc. cbv zeta. destruct (Req_EM_T a a); [reflexivity|congruence]. Qed.
Theorem C61_streak_first (a : R) : streak [a] = (-1)%Z.
Proof. reflexivity. Qed.

(** ** C87 *)
Theorem C87_defaults_rest {F} {NF : Num F} :
  accepted (macd_default (F:=F)) /\ accepted (po_default (F:=F)) /\ accepted (vo_default (F:=F)) /\ accepted aroon_default.
Proof. repeat split; eexists; reflexivity. Qed.
