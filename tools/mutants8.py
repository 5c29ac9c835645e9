MUTANTS=[]
def M(f,d,old,new,claims,what,**k):
    MUTANTS.append(dict(id=f'{f}.{d}.z{len(MUTANTS)}',file=f+'.v',**{'def':d},old=old,new=new,claims=claims.split(),what=what,**k))
C='MCommon';K='MCore';N='MContent';X='MFixture';S='MStrategy';E='MMetrics';T='MStats';P='MPrint';A='MTa';G='MTesting';L='MPlot'
# charts (C114)
M(L,'text_plot','(fst size) (snd size)','(snd size) (fst size)','C114','width and height swapped')
M(L,'text_plot','(f32_ofZ (Z.of_nat (length items)))','(f32_ofZ (Z.of_nat (length items) + 1))','C114','axis one entry too long')
M(L,'text_plot','(enumerate 0 items)','(enumerate 1 items)','C114','positions shifted by one')
M(L,'text_plot','to_f32 (snd iv)','to_f32 (B754_zero false)','C114','flat chart')
M(L,'to_f32','B754_infinity s => B754_infinity s','B754_infinity s => B754_infinity false','C114','minus infinity drawn as plus infinity')
M(L,'to_f32','mode_NE','mode_DN','C114','truncated instead of rounded')
M(L,'f32_ofZ','mode_NE','mode_UP','C114','positions rounded up')
M(L,'add32','mode_NE','mode_DN','C114','position sum rounded down (control: differs only beyond 2^24 entries)')
M(L,'enumerate','enumerate (S i) t','enumerate i t','C114','all entries at one position')
M(L,'plot_net_equity','tv_net_equity_history','tv_equity_history','C114','equity instead of net equity')
M(L,'plot_max_drawdown','tv_max_drawdown_history','tv_net_equity_history','C114','net equity instead of drawdown')
M(L,'plot_equity','tv_equity_history','tv_net_equity_history','C114','net equity instead of equity')
# trades (C112, C116, C119, C121)
M(S,'trade_pnl','(price - fill_price)','(fill_price - price)','C112 ','profit has the wrong sign')
M(S,'trade_pnl','(price - fill_price)','(fill_price - price)','C116','profit has the wrong sign')
M(S,'trade_pnl','(price - fill_price)','(fill_price - price)','C119','profit has the wrong sign')
M(S,'trade_pnl','* size * multiplier','* multiplier','C119','size ignored')
M(S,'trade_pnl','else fZ (-1)','else fZ 1','C112','shorts as longs')
M(S,'trade_pnl','else fZ (-1)','else fZ 1','C119','shorts as longs')
M(S,'fill_size','equity / price','equity','C116','size not divided by the price (control: signs unaffected)')
M(S,'fill_size','equity / price','price / equity - fZ 1','C116','size may be negative')
M(S,'metrics_close','fgtb pnl (fZ 0)','fgeb pnl (fZ 0)','C116','breaking even counts as winning')
M(S,'metrics_close','(pnl <? fZ 0)','(pnl <=? fZ 0)','C116','breaking even counts as losing')
M(S,'metrics_close','sm_gross_loss m + fabs pnl','sm_gross_loss m + pnl','C112','gross loss negative')
M(S,'metrics_close','sm_gross_loss m + fabs pnl','sm_gross_loss m + pnl','C119','gross loss negative')
M(S,'metrics_close','(if dir_eqb d Long then sm_short_net m else sm_short_net m + pnl)','(sm_short_net m + pnl)','C119','short net profit counts longs')
M(S,'metrics_close','(sm_net m + pnl)','(sm_net m + fabs pnl)','C112','losses added')
M(S,'strategy_fill','(fill_size (sc_capital cfg + sm_net m + sm_open m) px)','(fill_size (sc_capital cfg) px)','C119','sizing ignores profits (control: C119 is about the recorded size)')
M(S,'strategy_step','let price := if sc_on_close cfg then close else open in','let price := close in','C121','always fills at the close')
M(S,'strategy_step','if sc_on_close cfg then dir else s_unfilled s','dir','C121','fills on the bar of the signal')
M(S,'strategy_step','let unfilled := if sc_on_close cfg then unfilled else dir in','let unfilled := if sc_on_close cfg then unfilled else (match dir with Some d => Some d | None => unfilled end) in','C121','equivalent: the order was just filled (control)')
M(S,'strategy_step','(sc_capital cfg + sm_net m + sm_open m)','(sc_capital cfg + sm_net m)','C112','equity without open profit')
M(S,'strategy_step','(sc_capital cfg + sm_net m + sm_open m)','(sc_capital cfg + sm_net m)','C119','equity without open profit')
M(S,'strategy_step','px <- unwrap close ;;','px <- unwrap open ;;','C112','open profit valued at the open')
M(S,'strategy_step','px <- unwrap close ;;','px <- unwrap open ;;','C119','open profit valued at the open')
M(T,'mean_next','','','C119','') if False else None
# windowed indicators (C113, C115, C117, C118)
M(A,'sma_step','sum / sma_lenf s','sum / sma_lenf s * fZ 1','C113','equivalent: multiplication by one (control)')
M(A,'sma_step','Some f => sum - f','Some f => sum','C113','window never shrinks')
M(A,'sum_step','Some f => acc - f','Some f => acc','C113','window never shrinks')
M(A,'change_step','Some (l - f)','Some (f - l)','C113','change has the wrong sign')
M(A,'roc_step','fZ 100 * (l - f) / f','(l - f) / f * fZ 100','C113','rounded twice')
M(N,'cmo_value','fZ 100 * (a - b) / (a + b)','(a - b) / (a + b) * fZ 100','C113','rounded twice')
M(N,'bop_value','(c - o) / (h - l)','(o - c) / (h - l)','C113','sign')
M(N,'don_basis','x / fZ 2','x','C113','not halved')
M(N,'vortex_step','','','C113','') if False else None
M(A,'cross_over','','','C115','') if False else None
M(N,'cmo_up','ps_max','ps_min','C115','gains are losses')
M(N,'po_value','(s - l) / l','(s - l) / s','C115','relative to the short average')
M(N,'bop_value','if h ==? l then None else','','C118','division by zero on flat bars')
M(N,'cmo_value','if a ==? - b then None else','','C118','0/0 on flat prices')
M(N,'aroon_value','fZ z + fnat len','fZ z + fnat len - fZ 1','C117','Aroon off by one')
M(A,'prank_step','x <=? last','last <=? x','C117','rank reversed')
M(A,'rsi_step','fmax change (fZ 0)','fmin change (fZ 0)','C117','gains and losses swapped')
M(A,'rsi_step','fZ 100 - fZ 100 / (fZ 1 + rs)','fZ 100 - fZ 100 / (fZ 2 + rs)','C117','RSI of rising prices below 100? (control at infinity: 0 when falling breaks)')
M(A,'highest_step','highest (wc_all','lowest (wc_all','C117','lowest for highest')
M(A,'bars_offset','(abs_diff (abs_diff len index) 1)','(abs_diff len index)','C117','offset by one')
M(N,'ao_step','Some (a - p)','Some a','C118','not differenced (flat: still constant, control)')
M(N,'dmi_dx','if p ==? - m then fZ 0 else p + m','p + m','C118','denominator (control: same on flat bars)')
# missing data (C120)
M(A,'ema_step','v <- unwrap value ;;','let v := match value with Some v => v | None => prev end in','C120','gap tolerated by Ema')
M(A,'sma_step','let last_value := wc_last_unwrapped cache in','l <- unwrap value ;; let last_value := Some l in','C120','Sma panics on a gap')
M(C,'fixnan_step','| None => Ok (s, s)','| None => Ok (s, None)','C120','filler passes gaps on')
M(C,'wv_step','wv_len s <=? d','wv_len s <? d','C120','window validator one bar late')
M(A,'rsi_step','| _, _ => (None, None)','| _, _ => (Some (fZ 0), Some (fZ 0))','C120','gap counted as no change')
M(N,'bop_value','| _, _, _, _ => None','| _, _, _, _ => Some (fZ 0)','C120','gap gives 0 (control: C120 is about panics)')
M(N,'cks_step','bh <- bar_high c ;;','bh <- bar_high c ;; _ <- unwrap bh ;;','C120','panics on a missing high')
M(N,'cmo_step','let momm := ps_diff src (cmo_prev s) in','_ <- unwrap src ;; let momm := ps_diff src (cmo_prev s) in','C120','panics on any gap')
M(N,'vo_step',"'(ss,","_ <- Ok tt ;; '(ss,",'C120','equivalent (control)') if False else None
M(N,'dmi_step','high <- bar_high c ;;','high <- bar_high c ;; _ <- unwrap high ;;','C120','panics on a missing high')
M(N,'aroon_step','at_len <- at_length c (ar_len s) ;;','bh <- bar_high c ;; _ <- unwrap bh ;; at_len <- at_length c (ar_len s) ;;','C120','panics on a missing high')
M(N,'bop_step','Ok (tt, bop_value','_ <- unwrap cl ;; Ok (tt, bop_value','C120','panics on a missing close')
MUTANTS=[m for m in MUTANTS if m]
