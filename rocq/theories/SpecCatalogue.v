(** * SpecCatalogue: the components of the library, as one relation, and what
      it means for two contexts to show the same data up to a bar. *)
From Verif Require Export PRun.

(** The first [n] bars of every column. *)
Definition same_data {F} (n : nat) (d d' : provider F) : Prop :=
  firstn n (p_open d) = firstn n (p_open d') /\ firstn n (p_high d) = firstn n (p_high d') /\
  firstn n (p_low d) = firstn n (p_low d') /\ firstn n (p_close d) = firstn n (p_close d') /\
  firstn n (p_volume d) = firstn n (p_volume d') /\ firstn n (p_time d) = firstn n (p_time d').

(** Two contexts at the same bar whose data agree on the first [n] bars of
    the series.  Everything else (later bars, the length of the series, the
    end tick) may differ. *)
Definition same_until {F} (n : nat) (c c' : ctx F) : Prop :=
  c_index c = c_index c' /\ same_data n (c_data c) (c_data c').

Section Catalogue.
  Context {F : Type} {NF : Num F}.

  (** One component feeding another. *)
  Definition pipe_new {S T : Type} (a : res S) (b : res T) : res (S * T) :=
    x <- a ;; y <- b ;; Ok (x, y).
  Definition pipe_step {S T I M O : Type} (f : ctx F -> S -> I -> res (S * M))
      (g : ctx F -> T -> M -> res (T * O)) (c : ctx F) (s : S * T) (x : I) : res ((S * T) * O) :=
    '(a, m) <- f c (fst s) x ;; '(b, o) <- g c (snd s) m ;; Ok ((a, b), o).
  (** A component whose whole state can be looked at after every call (the
      strategy and the metrics objects are read this way). *)
  Definition shown {S I O : Type} (f : ctx F -> S -> I -> res (S * O)) (c : ctx F) (s : S) (x : I)
      : res (S * S) := '(s', _) <- f c s x ;; Ok (s', s').

  (** [component new step]: [new] is a constructor call of the library with
      some configuration and [step] the [next] of what it builds. *)
  Inductive component : forall {S I O : Type}, res S -> (ctx F -> S -> I -> res (S * O)) -> Prop :=
  (* common *)
  | K_fixnan : component (Ok fixnan_new) fixnan_step
  | K_validator n : component (wv_new n) wv_step
  | K_position : component (Ok position_new) position_step
  | K_src k : component (Ok tt) (src_step k)
  (* statistics *)
  | K_mean : component (Ok mean_new) mean_step
  | K_wvar : component (Ok wvar_new) wvar_step
  | K_wstdev : component (Ok wvar_new) wstdev_step
  | K_var b : component (Ok (var_build b)) var_step
  | K_sstdev b : component (Ok (sstdev_build b)) sstdev_step
  (* ta *)
  | K_sma n : component (sma_new n) sma_step
  | K_sum n : component (sum_new n) sum_step
  | K_ema n : component (ema_new n) ema_step
  | K_ema_alpha n a : component (ema_with_alpha n a) ema_step
  | K_rma n : component (rma_new n) rma_step
  | K_swma : component swma_new swma_step
  | K_wma n : component (wma_new n) wma_step
  | K_ma k n : component (ma_new k n) ma_step
  | K_change n : component (change_new n) change_step
  | K_roc n : component (roc_new n) roc_step
  | K_dev n : component (dev_new n) dev_step
  | K_stdev n b : component (stdev_new n b) stdev_step
  | K_highest n : component (highest_new n) highest_step
  | K_lowest n : component (lowest_new n) lowest_step
  | K_highest_bars n : component (highest_bars_new n) highest_bars_step
  | K_lowest_bars n : component (lowest_bars_new n) lowest_bars_step
  | K_prank n : component (prank_new n) prank_step
  | K_rsi n : component (rsi_new n) rsi_step
  | K_stoch n : component (stoch_new n) stoch_step
  | K_tr b : component (Ok b) tr_step
  | K_atr n : component (atr_new n) atr_step
  | K_cross : component (Ok cross_new) cross_step
  | K_crossover : component (Ok cross_new) crossover_step
  | K_crossunder : component (Ok cross_new) crossunder_step
  | K_cross_t t : component (Ok (crosst_new t)) cross_t_step
  | K_crossover_t t : component (Ok (crosst_new t)) crossover_t_step
  | K_crossunder_t t : component (Ok (crosst_new t)) crossunder_t_step
  (* content: indicators *)
  | K_aroon n : component (aroon_new n) aroon_step
  | K_ao k k' m n m' n' : component
      (s <- ma_new m n ;; l <- ma_new m' n' ;; Ok (ao_new (src_box k) (src_box k') s l)) ao_step
  | K_bop : component (Ok tt) bop_step
  | K_bbpb k n x : component (bb_new (src_box k) n x) bbpb_step
  | K_bbw k n x : component (bb_new (src_box k) n x) bbw_step
  | K_cmf n : component (cmf_new n) cmf_step
  | K_cks p q x : component (cks_new p q x) cks_step
  | K_cmo k n : component (cmo_new (src_box k) n) cmo_step
  | K_chop n : component (chop_new n) chop_step
  | K_cci k n : component (cci_new (src_box k) n) cci_step
  | K_crsi k a b d : component (crsi_new (src_box k) a b d) crsi_step
  | K_cop k a b d : component (cop_new (src_box k) a b d) cop_step
  | K_dmi a b : component (dmi_new a b) dmi_step
  | K_don n : component (don_new n) don_step
  | K_macd k k' m n m' n' m'' n'' : component
      (s <- ma_new m n ;; l <- ma_new m' n' ;; g <- ma_new m'' n'' ;;
       Ok (mkMacd (src_box k) (src_box k') s l g)) macd_step
  | K_po k m n m' n' : component
      (s <- ma_new m n ;; l <- ma_new m' n' ;; Ok (mkPo (src_box k) s l)) po_step
  | K_rsii k n : component (rsii_new (src_box k) n) rsii_step
  | K_rvgi n : component (rvgi_new n) rvgi_step
  | K_rvoli k n m : component (rvoli_new (src_box k) n m) rvoli_step
  | K_srsi k a b d e : component (srsi_new (src_box k) a b d e) srsi_step
  | K_uo a b d : component (uo_new a b d) uo_step
  | K_vo m n m' n' : component
      (s <- ma_new m n ;; l <- ma_new m' n' ;; Ok (mkVo s l)) vo_step
  | K_vortex n : component (vortex_new n) vortex_step
  | K_wpr k n : component (wpr_new (src_box k) n) wpr_step
  (* content: strategies *)
  | K_osc_strategy a b : component (Ok (osc_strategy_new a b)) thr_step
  | K_srsi_strategy a b : component (Ok (osc_strategy_new a b)) srsi_strategy_step
  | K_wpr_strategy a b : component (Ok (wpr_strategy_new a b)) thr_step
  | K_macd_strategy : component (Ok macd_strategy_new) thr_step
  | K_cross_strategy : component (Ok cross_new) cross_strategy_step
  | K_dmi_strategy a : component (Ok (dmi_strategy_new a)) dmi_strategy_step
  | K_aroon_strategy : component (Ok aroons_new) aroons_step
  (* strategy and metrics *)
  | K_strategy cfg : component (Ok (strategy_new cfg)) strategy_step
  | K_equity k : component (Ok (equity_new k)) equity_step
  | K_returns k b : component (Ok (returns_build k b)) returns_step
  | K_tv cfg r : component (Ok (tv_new (strategy_new cfg) r)) tv_step
  | K_cobra cfg b y : component (Ok (cobra_new (strategy_new cfg) b y)) cobra_step
  (* combinations: an indicator feeding a strategy feeding metrics ... *)
  | K_pipe S T I M O (a : res S) (b : res T) (f : ctx F -> S -> I -> res (S * M))
      (g : ctx F -> T -> M -> res (T * O)) :
      component a f -> component b g -> component (pipe_new a b) (pipe_step f g)
  | K_shown S I O (a : res S) (f : ctx F -> S -> I -> res (S * O)) :
      component a f -> component a (shown f)
  | K_boxed S I O (a : res S) (f : ctx F -> S -> I -> res (S * O)) :
      component a f -> component (s <- a ;; Ok (box f s)) ostep.
End Catalogue.
