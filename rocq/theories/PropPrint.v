(** * PropPrint: C110, what the printed reports say. *)
From Flocq Require Import Core Relative IEEE754.BinarySingleNaN.
From Verif Require Import PRound IEEE Inst MMetrics PropStrategy PropMetrics PropMetrics2 MPrint.
From Coq Require Import ZArith Lra Psatz List Strings.String Strings.Ascii.
Import ListNotations.
Local Open Scope string_scope.

(** ** Reading a printed number: an optional minus sign, digits, and possibly a
    point followed by more digits. *)
(** the value of a digit. *)
Definition digit_of (c : ascii) : option Z :=
  let n := Z.of_nat (nat_of_ascii c) in if ((48 <=? n) && (n <=? 57))%Z then Some (n - 48)%Z else None.
(** digits read so far as a whole number, and the count of digits after the point once it is met. *)
Fixpoint reading (acc : Z) (places : option nat) (s : string) : option (Z * nat) :=
  match s with
  | EmptyString => Some (acc, match places with Some p => p | None => O end)
  | String c t =>
      if (c =? ".")%char then match places with None => reading acc (Some O) t | Some _ => None end
      else match digit_of c with Some d => reading (10 * acc + d) (option_map S places) t | None => None end
  end.
(** [Some (z, p)]: the text is the number z / 10^p, written with p decimals. *)
Definition read_number (s : string) : option (Z * nat) :=
  match s with
  | EmptyString => None
  | String c t =>
      if (c =? "-")%char then match t with EmptyString => None | _ => option_map (fun r => ((- fst r)%Z, snd r)) (reading 0 None t) end
      else reading 0 None s
  end.
Example reads_1 : read_number "-12.50" = Some (-1250, 2%nat)%Z. Proof. reflexivity. Qed.
Example reads_2 : read_number "7" = Some (7, 0%nat)%Z. Proof. reflexivity. Qed.
Example reads_3 : read_number "1.2.3" = None /\ read_number "-" = None /\ read_number "NaN" = None /\ read_number "" = None. Proof. repeat split; reflexivity. Qed.

Lemma append_assoc (a b c : string) : ((a ++ b) ++ c)%string = (a ++ b ++ c)%string.
Proof. induction a as [|x a IH]; [reflexivity|]. cbn [append]. rewrite IH. reflexivity. Qed.
Lemma append_nil (a : string) : (a ++ "")%string = a.
Proof. induction a as [|x a IH]; [reflexivity|]. cbn [append]. rewrite IH. reflexivity. Qed.
Local Open Scope Z_scope.
Lemma reading_digit d acc pl t : 0 <= d < 10 -> reading acc pl (digit d ++ t) = reading (10 * acc + d) (option_map S pl) t.
Proof.
  intros H. assert (E : exists n, (n < 10)%nat /\ d = Z.of_nat n) by (exists (Z.to_nat d); lia). destruct E as (n & L & ->).
  do 10 (destruct n as [|n]; [reflexivity|]). lia.
Qed.
Lemma pow10 k : 10 ^ Z.of_nat (S k) = 10 * 10 ^ Z.of_nat k.
Proof. rewrite Nat2Z.inj_succ, Z.pow_succ_r by lia. reflexivity. Qed.
Lemma reading_padded k : forall n acc p t, 0 <= n < 10 ^ Z.of_nat k ->
  reading acc (Some p) (padded k n ++ t) = reading (acc * 10 ^ Z.of_nat k + n) (Some (p + k)%nat) t.
Proof.
  induction k as [|k IH]; intros n acc p t H.
  - cbn in H. assert (n = 0) by lia. subst n. cbn [padded append]. rewrite Nat.add_0_r. f_equal. cbn. lia.
  - cbn [padded]. rewrite append_assoc. rewrite pow10 in *.
    rewrite IH by (split; [apply Z.div_pos; lia|apply Z.div_lt_upper_bound; lia]).
    rewrite reading_digit by (apply Z.mod_pos_bound; lia). cbn [option_map]. f_equal; [|f_equal; lia].
    pose proof (Z.div_mod n 10 ltac:(lia)). lia.
Qed.
Lemma reading_unpadded fuel : forall n t, 0 <= n < 2 ^ Z.of_nat fuel -> (0 < fuel)%nat ->
  reading 0 None (unpadded fuel n ++ t) = reading n None t.
Proof.
  induction fuel as [|f IH]; intros n t H L; [lia|]. cbn [unpadded]. rewrite append_assoc.
  assert (M : 0 <= n mod 10 < 10) by (apply Z.mod_pos_bound; lia). pose proof (Z.div_mod n 10 ltac:(lia)) as D.
  destruct (Z.ltb_spec n 10) as [S|S].
  - cbn [append]. rewrite reading_digit by exact M. cbn [option_map]. f_equal. rewrite Z.mod_small by lia. lia.
  - rewrite Nat2Z.inj_succ, Z.pow_succ_r in H by lia.
    assert (0 < n / 10) by (apply Z.div_str_pos; lia).
    rewrite IH; [rewrite reading_digit by exact M; cbn [option_map]; f_equal; lia|lia|].
    destruct f; [cbn in H; lia|lia].
Qed.
Lemma log2_fuel n : 0 <= n -> 0 <= n < 2 ^ Z.of_nat (S (Z.to_nat (Z.log2 n))).
Proof.
  intros H. split; [exact H|]. rewrite Nat2Z.inj_succ, Z2Nat.id by apply Z.log2_nonneg.
  destruct (Z.eq_dec n 0) as [->|N]; [reflexivity|]. apply Z.log2_spec. lia.
Qed.
Lemma reading_nonempty acc pl s z p : reading acc pl s = Some (z, p) -> forall c t, s = String c t -> c <> "-"%char.
Proof. intros H c t -> ->. cbn in H. discriminate. Qed.
Lemma read_unsigned s z p : s <> ""%string -> reading 0 None s = Some (z, p) -> read_number s = Some (z, p).
Proof.
  intros N H. unfold read_number. destruct s as [|c t]; [congruence|]. destruct (Ascii.eqb_spec c "-"); [|exact H].
  exfalso. exact (reading_nonempty _ _ _ _ _ H c t eq_refl e).
Qed.
Lemma read_signed b s z p : s <> ""%string -> reading 0 None s = Some (z, p) -> read_number (minus b ++ s) = Some (if b then - z else z, p).
Proof.
  intros N H. destruct b; [|apply read_unsigned; assumption]. cbn [minus append]. unfold read_number.
  destruct (Ascii.eqb_spec "-" "-"); [|congruence]. destruct s; [congruence|]. rewrite H. reflexivity.
Qed.
Lemma unpadded_nonempty f n t : (unpadded (S f) n ++ t)%string <> ""%string.
Proof. cbn [unpadded]. rewrite append_assoc. destruct (n <? 10); [discriminate|]. destruct (unpadded f (n / 10)); discriminate. Qed.
Lemma read_decimal k n : 0 <= n -> decimal k n <> ""%string /\ reading 0 None (decimal k n) = Some (n, k).
Proof.
  intros H. unfold decimal. assert (P : 0 < 10 ^ Z.of_nat k) by (apply Z.pow_pos_nonneg; lia).
  split; [apply unpadded_nonempty|]. rewrite reading_unpadded; [|apply log2_fuel, Z.div_pos; lia|lia].
  cbn [append reading Ascii.eqb Bool.eqb]. rewrite <- (append_nil (padded k _)).
  rewrite reading_padded by (apply Z.mod_pos_bound; exact P). cbn [reading]. f_equal. f_equal.
  rewrite Z.mul_comm. symmetry. apply Z.div_mod. lia.
Qed.
Theorem C110_count n : read_number (show_count n) = Some (Z.of_nat n, 0%nat).
Proof.
  unfold show_count. rewrite <- (append_nil (unpadded _ _)). apply read_unsigned; [apply unpadded_nonempty|].
  rewrite reading_unpadded; [reflexivity|apply log2_fuel; lia|lia].
Qed.

(** ** Correct rounding *)
Local Open Scope R_scope.
Lemma whole_near a b : (0 <= a)%Z -> (0 < b)%Z -> whole a b = ZnearestE (IZR a / IZR b).
Proof.
  intros A B. unfold whole, Znearest. rewrite Zfloor_div by lia.
  assert (PB : 0 < IZR b) by (apply IZR_lt, B).
  assert (E : IZR a / IZR b - IZR (a / b) = IZR (a mod b) / IZR b).
  { rewrite (Z.div_mod a b) at 1 by lia. rewrite plus_IZR, mult_IZR. field. lra. }
  rewrite E. pose proof (Z.mod_pos_bound a b B) as M.
  assert (C : forall c, (2 * (a mod b) ?= b)%Z = c -> Rcompare (IZR (a mod b) / IZR b) (/ 2) = c).
  { intros c <-. rewrite <- (Rcompare_mult_r (2 * IZR b)) by lra.
    replace (IZR (a mod b) / IZR b * (2 * IZR b)) with (IZR (2 * (a mod b))) by (rewrite mult_IZR; field; lra).
    replace (/ 2 * (2 * IZR b)) with (IZR b) by field. apply Rcompare_IZR. }
  assert (CE : (0 < a mod b)%Z -> Zceil (IZR a / IZR b) = (a / b + 1)%Z).
  { intros P. rewrite Zceil_floor_neq; [rewrite Zfloor_div by lia; reflexivity|].
    rewrite Zfloor_div by lia. apply IZR_lt in P. intros Q. assert (IZR (a mod b) / IZR b = 0) by lra.
    assert (0 < IZR (a mod b) / IZR b) by (apply Rmult_lt_0_compat; [exact P|apply Rinv_0_lt_compat, PB]). lra. }
  destruct (2 * (a mod b) ?= b)%Z eqn:Q; rewrite (C _ eq_refl).
  - apply Z.compare_eq_iff in Q. rewrite CE by lia. destruct (Z.even (a / b)); reflexivity.
  - reflexivity.
  - apply Z.compare_gt_iff in Q. rewrite CE by lia. reflexivity.
Qed.
Lemma near_opp x : ZnearestE (- x) = (- ZnearestE x)%Z.
Proof.
  rewrite Znearest_opp. f_equal. unfold Znearest. destruct (Rcompare _ _); try reflexivity.
  rewrite Bool.negb_involutive, Z.even_opp, Z.add_1_r, Z.even_succ, <- Z.negb_even. reflexivity.
Qed.
Lemma scaled_near k m e : scaled k (Z.pos m) e = ZnearestE (F2R (Float radix2 (Z.pos m) e) * 10 ^ k).
Proof.
  unfold scaled, F2R. cbn [Fnum Fexp]. rewrite pow_IZR. destruct (Z.leb_spec 0 e) as [E|E].
  - rewrite <- (IZR_Zpower radix2) by exact E. rewrite <- !mult_IZR. change (radix_val radix2) with 2%Z.
    symmetry. apply Zrnd_IZR; apply valid_rnd_N.
  - rewrite whole_near by (first [apply Z.pow_pos_nonneg; lia|apply Z.mul_nonneg_nonneg; [lia|apply Z.pow_nonneg; lia]]).
    f_equal. rewrite mult_IZR. replace (bpow radix2 e) with (/ IZR (2 ^ (- e))); [unfold Rdiv; ring|].
    change 2%Z with (radix_val radix2) at 1. rewrite (IZR_Zpower radix2) by lia. rewrite bpow_opp, Rinv_inv. reflexivity.
Qed.
Lemma scaled_nonneg k m e : (0 <= scaled k (Z.pos m) e)%Z.
Proof.
  rewrite scaled_near. rewrite <- (Zrnd_IZR ZnearestE 0). apply Zrnd_le; [apply valid_rnd_N|].
  apply Rmult_le_pos; [apply F2R_ge_0; cbn; lia|apply pow_le; lra].
Qed.
(** The printed number is the figure rounded to [k] decimals, ties to even. *)
Theorem C110_fixed k (x : f64) : is_finite x = true ->
  read_number (show_fixed k x) = Some (ZnearestE (B2R x * 10 ^ k), k).
Proof.
  intros F. destruct x as [s|s| |s m e B]; try discriminate F.
  - cbn [show_fixed B2R]. destruct (read_decimal k 0 ltac:(lia)) as [N E]. rewrite (read_signed s _ _ _ N E).
    rewrite Rmult_0_l, (Zrnd_IZR ZnearestE 0). destruct s; reflexivity.
  - cbn [show_fixed B2R]. destruct (read_decimal k _ (scaled_nonneg k m e)) as [N E]. rewrite (read_signed s _ _ _ N E).
    rewrite scaled_near. destruct s; cbn [cond_Zopp]; [|reflexivity].
    rewrite F2R_Zopp, Ropp_mult_distr_l_reverse, near_opp. reflexivity.
Qed.
(** Hence never more than half a unit of the last decimal off, and in the order of the figures. *)
Theorem C110_close k (x : f64) z p : is_finite x = true -> read_number (show_fixed k x) = Some (z, p) ->
  p = k /\ Rabs (IZR z / 10 ^ p - B2R x) <= / 2 / 10 ^ k.
Proof.
  intros F. rewrite (C110_fixed k x F). intros E. injection E as <- <-. split; [reflexivity|].
  assert (P : 0 < 10 ^ k) by (apply pow_lt; lra).
  pose proof (Znearest_half (fun n => negb (Z.even n)) (B2R x * 10 ^ k)) as H.
  replace (IZR (ZnearestE (B2R x * 10 ^ k)) / 10 ^ k - B2R x) with (- ((B2R x * 10 ^ k - IZR (ZnearestE (B2R x * 10 ^ k))) / 10 ^ k)) by (field; lra).
  rewrite Rabs_Ropp. unfold Rdiv. rewrite Rabs_mult, (Rabs_right (/ 10 ^ k)) by (left; apply Rinv_0_lt_compat, P).
  apply Rmult_le_compat_r; [left; apply Rinv_0_lt_compat, P|exact H].
Qed.
Theorem C110_order k (x y : f64) : is_finite x = true -> is_finite y = true -> B2R x <= B2R y ->
  exists zx zy, read_number (show_fixed k x) = Some (zx, k) /\ read_number (show_fixed k y) = Some (zy, k) /\ (zx <= zy)%Z.
Proof.
  intros Fx Fy L. do 2 eexists. split; [apply C110_fixed, Fx|]. split; [apply C110_fixed, Fy|].
  apply Zrnd_le; [apply valid_rnd_N|]. apply Rmult_le_compat_r; [apply pow_le; lra|exact L].
Qed.

(** ** The cells of the tables *)
(** [text] is the figure [x] with [k] decimals. *)
Definition denotes (k : nat) (text : string) (x : f64) : Prop :=
  match x with
  | B754_nan => text = "NaN"%string
  | B754_infinity s => text = (if s then "-inf" else "inf")%string
  | _ => read_number text = Some (ZnearestE (B2R x * 10 ^ k), k)
  end.
(** an amount of money, to the cent. *)
Definition amount (currency text : string) (x : f64) : Prop :=
  exists n, text = (n ++ " " ++ currency)%string /\ denotes 2 n x.
(** the ratio [p] in percent, to two decimals (up to one rounding of 100 * p). *)
Definition percentage (text : string) (p : f64) : Prop :=
  exists n, text = (n ++ "%")%string /\
    (is_nan p = true -> n = "NaN"%string) /\
    (forall s, p = B754_infinity s -> n = (if s then "-inf" else "inf")%string) /\
    (is_finite p = true -> Rabs (B2R p) <= bpow radix2 1015 ->
       exists z, read_number n = Some (z, 2%nat) /\
         Rabs (IZR z / 100 - 100 * B2R p) <= / 200 + bpow radix2 (-53) * Rabs (100 * B2R p) + bpow radix2 (-1074)).
(** an amount, [sep], and a ratio in percent. *)
Definition amount_and_percentage (sep currency text : string) (x p : f64) : Prop :=
  exists a b, text = (a ++ sep ++ b)%string /\ amount currency a x /\ percentage b p.
(** a whole number. *)
Definition counts (text : string) (n : nat) : Prop := read_number text = Some (Z.of_nat n, 0%nat).

Lemma show_denotes k x : denotes k (show_fixed k x) x.
Proof.
  destruct x as [s|s| |s m e B]; [| | |].
  - exact (C110_fixed k (B754_zero s) eq_refl).
  - destruct s; reflexivity.
  - reflexivity.
  - exact (C110_fixed k (B754_finite s m e B) eq_refl).
Qed.
Lemma price_amount currency x : amount currency (f_price currency x) x.
Proof. exists (show_fixed 2 x). split; [reflexivity|apply show_denotes]. Qed.
Lemma percent_percentage p : percentage (f_percent (hundred p)) p.
Proof.
  exists (show_fixed 2 (hundred p)). split; [reflexivity|]. split; [|split].
  - intros N. destruct p as [s|s| |s m e B]; try discriminate N. reflexivity.
  - intros s ->. destruct s; reflexivity.
  - intros F L. destruct (f64_ofZ_correct 100 ltac:(lia)) as [V1 F1].
    destruct (mult_near p (f64_ofZ 100) F F1) as [Fh E]; [|change (Bmult mode_NE p (f64_ofZ 100)) with (hundred p) in Fh, E].
    { rewrite V1, Rabs_mult, (Rabs_right 100) by lra. apply Rle_trans with (bpow radix2 1015 * bpow radix2 7).
      - apply Rmult_le_compat; [apply Rabs_pos|lra|exact L|cbn; lra].
      - rewrite <- bpow_plus. apply bpow_le. lia. }
    eexists. split; [apply C110_fixed; exact Fh|].
    destruct (C110_close 2 (hundred p) _ _ Fh (C110_fixed 2 _ Fh)) as [_ C].
    rewrite V1 in E. fold (hundred p) in E. replace (10 ^ 2) with 100 in * by ring.
    set (z := IZR (ZnearestE (B2R (hundred p) * 100))) in *.
    replace (z / 100 - 100 * B2R p) with ((z / 100 - B2R (hundred p)) + (B2R (hundred p) - B2R p * 100)) by ring.
    eapply Rle_trans; [apply Rabs_triang|]. rewrite (Rmult_comm 100 (B2R p)).
    assert (EE : eta64 <= bpow radix2 (-1074)) by (unfold eta64; apply bpow_le; lia).
    unfold u64 in E. change (Bmult mode_NE p (f64_ofZ 100)) with (hundred p) in E. replace (/ 2 / 100) with (/ 200) in C by field.
    revert C E EE. generalize (bpow radix2 (-1074)) eta64 (bpow radix2 (-53) * Rabs (B2R p * 100)). intros. lra.
Qed.
Lemma both_cells sep currency x p : amount_and_percentage sep currency (f_price currency x ++ sep ++ f_percent (hundred p)) x p.
Proof. exists (f_price currency x), (f_percent (hundred p)). split; [reflexivity|]. split; [apply price_amount|apply percent_percentage]. Qed.

(** A table of labelled cells, and what it must say under each label. *)
Definition table_says (rows : list (string * string)) (what : list (string * (string -> Prop))) : Prop :=
  Forall2 (fun row w => fst row = fst w /\ snd w (snd row)) rows what.
Theorem C110_summary currency (d : tvdata f64) : table_says (print_summary currency d)
  [("Net Profit", fun t => amount_and_percentage newline currency t (tv_net_profit d) (tv_net_profit_percent d));
   ("Gross Profit", fun t => amount_and_percentage newline currency t (tv_gross_profit d) (tv_gross_profit_percent d));
   ("Gross Loss", fun t => amount_and_percentage newline currency t (tv_gross_loss d) (tv_gross_loss_percent d));
   ("Max Run Up", fun t => amount_and_percentage newline currency t (tv_max_run_up d) (tv_max_run_up_percent d));
   ("Max Drawdown", fun t => amount_and_percentage newline currency t (tv_max_drawdown d) (tv_max_drawdown_percent d));
   ("Sharpe Ratio", fun t => denotes 3 t (tv_sharpe d));
   ("Sortino Ratio", fun t => denotes 3 t (tv_sortino d));
   ("Profit Factor", fun t => denotes 3 t (tv_profit_factor d));
   ("Open P/L", fun t => amount currency t (tv_open_pl d));
   ("Total Closed Trades", fun t => counts t (tv_closed d));
   ("Number Winning Trades", fun t => counts t (tv_winning d));
   ("Number Losing Trades", fun t => counts t (tv_losing d));
   ("Percent Profitable", fun t => percentage t (tv_percent_profitable d));
   ("Avg Trade", fun t => amount currency t (tv_avg_trade d));
   ("Avg Winning Trade", fun t => amount currency t (tv_avg_winning d));
   ("Avg Losing Trade", fun t => amount currency t (tv_avg_losing d));
   ("Ratio Avg Win / Avg Loss", fun t => denotes 2 t (tv_ratio d))]%string.
Proof.
  unfold table_says, print_summary. cbn zeta. repeat (apply Forall2_cons || apply Forall2_nil); cbn [fst snd]; (split; [reflexivity|]);
    first [apply both_cells|apply show_denotes|apply C110_count|apply price_amount|apply percent_percentage].
Qed.
Theorem C110_overview currency (d : tvdata f64) : table_says (print_overview currency d)
  [("Net Profit", fun t => amount_and_percentage " " currency t (tv_net_profit d) (tv_net_profit_percent d));
   ("Total Closed Trades", fun t => counts t (tv_closed d));
   ("Percent Profitable", fun t => percentage t (tv_percent_profitable d));
   ("Profit Factor", fun t => denotes 3 t (tv_profit_factor d));
   ("Max Drawdown", fun t => amount_and_percentage " " currency t (tv_max_drawdown d) (tv_max_drawdown_percent d));
   ("Avg Trade", fun t => amount currency t (tv_avg_trade d))]%string.
Proof.
  unfold table_says, print_overview. cbn zeta. repeat (apply Forall2_cons || apply Forall2_nil); cbn [fst snd]; (split; [reflexivity|]);
    first [apply both_cells|apply show_denotes|apply C110_count|apply price_amount|apply percent_percentage].
Qed.
(** Cobra prints the number of trades with two decimals, ".00". *)
Lemma count_cell n : (Z.of_nat n <= 2 ^ 53)%Z -> read_number (f_raw (f64_ofZ (Z.of_nat n))) = Some (100 * Z.of_nat n, 2%nat)%Z.
Proof.
  intros H. destruct (f64_ofZ_correct (Z.of_nat n) ltac:(lia)) as [V F]. unfold f_raw. rewrite (C110_fixed 2 _ F), V.
  replace (IZR (Z.of_nat n) * 10 ^ 2) with (IZR (100 * Z.of_nat n)) by (rewrite mult_IZR; ring).
  rewrite (Zrnd_IZR ZnearestE). reflexivity.
Qed.
Theorem C110_cobra (b : cobra f64) : (Z.of_nat (cb_trades b) <= 2 ^ 53)%Z -> table_says (cobra_print_text b)
  [("Equity Curve Max DD", fun t => percentage t (cb_eq_max_dd b));
   ("Intra-trade Max DD", fun t => percentage t (cb_intra_dd b));
   ("Sortino", fun t => denotes 2 t (cb_sortino b));
   ("Sharpe", fun t => denotes 2 t (cb_sharpe b));
   ("Profit Factor", fun t => denotes 2 t (cb_profit_factor b));
   ("Profitable %", fun t => percentage t (cb_profitable b));
   ("Trades", fun t => read_number t = Some (100 * Z.of_nat (cb_trades b), 2%nat)%Z);
   ("Omega", fun t => denotes 2 t (cb_omega b));
   ("Net Profit L/S Ratio", fun t => denotes 2 t (cb_ls_ratio b))]%string.
Proof.
  intros H. unfold table_says, cobra_print_text. repeat (apply Forall2_cons || apply Forall2_nil); cbn [fst snd]; (split; [reflexivity|]);
    first [apply percent_percentage|apply show_denotes|apply count_cell, H].
Qed.

(** ** What the report says of a backtest *)
Section Run.
  Variable log10 : f64 -> f64.
  #[local] Instance N110 : Num f64 := IEEE log10.
  #[local] Instance O110 : @OrdNum f64 N110 := IEEEOrd log10.
  (** the cell under [label]. *)
  Definition cell_says (rows : list (string * string)) (label : string) (P : string -> Prop) : Prop :=
    exists t, In (label, t) rows /\ P t.
  Lemma table_cell rows what label P : table_says rows what -> In (label, P) what -> cell_says rows label P.
  Proof.
    intros H. induction H as [|[l t] [l' Q] rows what [E1 E2] _ IH]; [intros []|]. cbn [fst snd] in *. subst l'.
    intros [E|E]; [injection E as <- <-; exists t; split; [left; reflexivity|exact E2]|].
    destruct (IH E) as (t' & I & H). exists t'. split; [right; exact I|exact H].
  Qed.
  Lemma table_labels rows what : table_says rows what -> map fst rows = map fst what.
  Proof. intros H. induction H as [|r w rows what [E _] _ IH]; [reflexivity|]. cbn [map]. rewrite E, IH. reflexivity. Qed.
  Lemma observed_after cfg rfr c sigs os s t : observed tv_step cfg (tv_new (strategy_new cfg) rfr) c sigs os -> newest os = Some (s, t) ->
    after cfg c sigs s.
  Proof.
    intros O N. destruct (metered_ind _ _ _ _ _ _ (fun _ _ _ => True) O I ltac:(auto)) as (s1 & t1 & _ & H & _ & [->|E]); [discriminate N|].
    rewrite E in N. injection N as <- <-. eexists. exact H.
  Qed.
  (** Each label once; the counts are the numbers of closed, winning and losing
      trades; the amounts are the sums of the trades' profits and losses. *)
  Theorem C110_backtest cfg rfr c sigs os s t currency :
    observed tv_step cfg (tv_new (strategy_new cfg) rfr) c sigs os -> newest os = Some (s, t) ->
    let rows := print_summary currency (tv_data t) in
    let pnls := map t_pnl (filter t_closed (s_trades s)) in
    let wins := filter (fun x => Bltb (f64_ofZ 0) x) pnls in
    let losses := filter (fun x => Bltb x (f64_ofZ 0)) pnls in
    let capital := sc_capital cfg in
    NoDup (map fst rows) /\
    cell_says rows "Total Closed Trades" (fun t => counts t (List.length pnls)) /\
    cell_says rows "Number Winning Trades" (fun t => counts t (List.length wins)) /\
    cell_says rows "Number Losing Trades" (fun t => counts t (List.length losses)) /\
    cell_says rows "Net Profit" (fun t => amount_and_percentage newline currency t (total pnls) (Bdiv mode_NE (total pnls) capital)) /\
    cell_says rows "Gross Profit" (fun t => amount_and_percentage newline currency t (total wins) (Bdiv mode_NE (total wins) capital)) /\
    cell_says rows "Gross Loss" (fun t => amount_and_percentage newline currency t (total (map Babs losses)) (Bdiv mode_NE (total (map Babs losses)) capital)) /\
    (pnls <> [] -> cell_says rows "Avg Trade" (fun t => amount currency t (Bdiv mode_NE (total pnls) (f64_ofZ (Z.of_nat (List.length pnls))))) /\
       cell_says rows "Percent Profitable" (fun t => percentage t (Bdiv mode_NE (f64_ofZ (Z.of_nat (List.length wins))) (f64_ofZ (Z.of_nat (List.length pnls)))))).
  Proof.
    intros O N. cbn zeta. pose proof (observed_after _ _ _ _ _ _ _ O N) as A.
    destruct (C30_totals cfg c sigs s A) as (H1 & H2 & H3 & H4 & H5 & H6 & _). cbn zeta in *.
    destruct (C39_formulas cfg rfr c sigs os s t O N) as (G1 & G2 & G3 & G4 & G5 & G6 & _ & G7 & G8 & G9 & _ & G10 & G11 & _). cbn zeta in *.
    pose proof (C110_summary currency (tv_data t)) as T.
    rewrite H1 in G1, G2, G11. rewrite H5 in G3, G4. rewrite H6 in G5, G6. rewrite H2 in G7, G10, G11. rewrite H3 in G8, G10. rewrite H4 in G9.
    rewrite G1, G2, G3, G4, G5, G6, G7, G8, G9, G10, G11 in T.
    split; [rewrite (table_labels _ _ T); cbn [map fst]; repeat (apply NoDup_cons; [cbn [In]; intuition discriminate|]); apply NoDup_nil|].
    repeat match goal with |- _ /\ _ => split end; try (eapply table_cell; [exact T|cbn [In]; tauto]).
    intros NE. assert (L : List.length (closed_pnls (s_trades s)) <> 0%nat) by (intros Z; apply NE, length_zero_iff_nil, Z).
    unfold per in T. destruct (Nat.eqb_spec (List.length (closed_pnls (s_trades s))) 0) as [Z|_]; [contradiction|].
    split; eapply table_cell; [exact T|cbn [In]; tauto|exact T|cbn [In]; tauto].
  Qed.
End Run.

(** A run of six bars with two closed trades and a third one open: the printed table. *)
Definition cfg110 : sconfig f64 := cfg_of false true true.
Definition printed : list (string * string) :=
  match run (metered tv_step) ctx6 (strategy_new cfg110, tv_new (strategy_new cfg110) (q 0)) sig6 with
  | Ok os => match rev os with (_, t) :: _ => print_summary "USD" (tv_data t) | [] => [] end
  | Panic => []
  end.
Example C110_ex : printed =
  [("Net Profit", "27.27 USD" ++ newline ++ "27.27%"); ("Gross Profit", "27.27 USD" ++ newline ++ "27.27%");
   ("Gross Loss", "0.00 USD" ++ newline ++ "0.00%"); ("Max Run Up", "103.64 USD" ++ newline ++ "50.89%");
   ("Max Drawdown", "9.09 USD" ++ newline ++ "7.14%"); ("Sharpe Ratio", "0.781"); ("Sortino Ratio", "0.000");
   ("Profit Factor", "0.000"); ("Open P/L", "63.64 USD"); ("Total Closed Trades", "2");
   ("Number Winning Trades", "2"); ("Number Losing Trades", "0"); ("Percent Profitable", "100.00%");
   ("Avg Trade", "13.64 USD"); ("Avg Winning Trade", "13.64 USD"); ("Avg Losing Trade", "0.00 USD");
   ("Ratio Avg Win / Avg Loss", "0.00")]%string.
Proof. vm_compute. reflexivity. Qed.
Example C110_ex_ties : map (show_fixed 2) [fdiv (q 1) (q 8); fdiv (q 3) (q 8); fdiv (q (-1)) (q 1000); q 1234567] =
  ["0.12"; "0.38"; "-0.00"; "1234567.00"]%string.
Proof. vm_compute. reflexivity. Qed.
