(** * PropGaps3: claims tightened after a third round of wrong programs (C72, C97, C110). *)
From Coq Require Import Reals Lra Lia String Ascii.
From Flocq Require Import Core IEEE754.BinarySingleNaN.
From Verif Require Import Inst PropStats PropPrint PropDefaults MMetrics MStats MPrint PMono PRound PropTrend.
Local Open Scope nat_scope.

(** ** C72: both ways of computing the deviation *)
Section C72.
  Context {F : Type} {NF : Num F}.
  Local Open Scope num_scope.
  (** Whichever way was chosen ([fast] or not), the reported deviation is the
      one the deviation component of that kind reports over the same changes. *)
  Theorem C72_either (c : ctx F) v0 fast xs x : exists s os sds,
    run_st returns_step c (returns_build v0 fast) (xs ++ [x]) = Ok (s, os) /\
    r_delta s = x - v0 /\
    r_mean s = mean (map (fun y => y - v0) (xs ++ [x])) /\
    run sstdev_step c (sstdev_build fast) (map (fun y => y - v0) (xs ++ [x])) = Ok (sds ++ [r_stdev s]).
  Proof.
    set (g := fun y => y - v0).
    assert (Q : forall h, exists s os sds ss, run_st returns_step c (returns_build v0 fast) h = Ok (s, os) /\ r_prev s = v0 /\
      run_st sstdev_step c (sstdev_build fast) (map g h) = Ok (ss, sds) /\ r_stdev_st s = ss /\
      r_mean_st s = mkMean (fsum (map g h)) (Datatypes.length (map g h)) /\
      (forall h' z, h = h' ++ [z] -> r_delta s = g z /\ r_mean s = mean (map g h) /\ exists sds', sds = sds' ++ [r_stdev s])).
    { induction h as [|z h IH] using rev_ind.
      - do 4 eexists. split; [reflexivity|]. split; [reflexivity|]. split; [reflexivity|]. split; [reflexivity|]. split; [reflexivity|]. intros h' z E. destruct h'; discriminate.
      - destruct IH as (s & os & sds & ss & E1 & P & E2 & S1 & M & _).
        destruct (sstdev_next ss (g z)) as [ss' sd] eqn:EN.
        exists (returns_next s z), (os ++ [tt])%list, (sds ++ [sd])%list, ss'.
        assert (EP : returns_next s z = mkReturns (g z) sd (mean (map g (h ++ [z]))) v0 ss' (mkMean (fsum (map g (h ++ [z]))) (Datatypes.length (map g (h ++ [z]))))).
        { unfold returns_next. rewrite P, S1, M. fold (g z). rewrite EN. unfold mean_next; cbn [mn_sum mn_n]. rewrite map_app. cbn [map].
          unfold mean. rewrite fsum_snoc, app_length. reflexivity. }
        rewrite run_st_app, E1. cbn [rbind run_st returns_step]. split; [reflexivity|]. rewrite EP. cbn [r_prev r_stdev_st r_mean_st r_delta r_mean r_stdev].
        split; [reflexivity|]. split; [rewrite map_app, run_st_app, E2; cbn [rbind run_st map]; unfold sstdev_step; rewrite EN; reflexivity|].
        split; [reflexivity|]. split; [reflexivity|]. intros h' y E. apply app_inj_tail in E. destruct E as [_ ->]. split; [reflexivity|]. split; [reflexivity|]. eexists. reflexivity. }
    destruct (Q (xs ++ [x])) as (s & os & sds & ss & E1 & _ & E2 & _ & _ & T). destruct (T xs x eq_refl) as (D & M & sds' & ->).
    exists s, os, sds'. split; [exact E1|]. split; [exact D|]. split; [exact M|]. unfold run. rewrite E2. reflexivity.
  Qed.
End C72.

(** ** C97: the default risk-free rate of the TradingView metrics is 2%. *)
Theorem C97_risk_free_rate :
  (tv_default_rfr : xr) = Fin (2 / 100) /\
  (is_finite (tv_default_rfr : f64) = true /\ B2R (tv_default_rfr : f64) = round radix2 (SpecFloat.fexp 53 1024) (round_mode mode_NE) (2 / 100)).
Proof.
  split; [apply fin_lit; lia|].
  assert (E2 : is_finite (q 2) = true) by reflexivity. assert (E100 : is_finite (q 100) = true) by reflexivity.
  change (tv_default_rfr : f64) with (Bdiv mode_NE (q 2) (q 100)).
  assert (V2 : B2R (q 2) = 2%R) by (apply q_val; lia). assert (V100 : B2R (q 100) = 100%R) by (apply q_val; lia).
  assert (P : (0 < B2R (q 100))%R) by (rewrite V100; lra).
  pose proof (div_rounded (q 2) (q 100) E2 E100 P) as C. rewrite V2, V100 in C. unfold rounded in C.
  assert (F : is_finite (Bdiv mode_NE (q 2) (q 100)) = true) by (vm_compute; reflexivity).
  destruct C as [(_ & E & _)|[[E _]|[E _]]]; [split; [exact F|exact E]| |]; exfalso; rewrite E in F; discriminate.
Qed.

(** ** C110: the two parts of a cell stand on two lines. *)
Theorem C110_line_break : map nat_of_ascii (list_ascii_of_string newline) = [10%nat].
Proof. reflexivity. Qed.
