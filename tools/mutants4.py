MUTANTS=[]
def M(f,d,old,new,claims,what,**k):
    MUTANTS.append(dict(id=f'{f}.{d}.x{len(MUTANTS)}',file=f+'.v',**{'def':d},old=old,new=new,claims=claims.split(),what=what,**k))
P='MProgram'
M(P,'df_format','then Ok Csv else Panic','then Ok Csv else Ok Csv','C94','unknown extension read as csv')
M(P,'df_format','else if String.eqb e "csv" then Ok Csv','else if String.eqb e "csv" then Ok Parquet','C94','csv read as parquet')
M(P,'df_column','| nil => Panic','| nil => Ok nil','C94','missing column is an empty one')
M(P,'series_to_duration','if fisnan x then Ok None else','','C94','NaN timestamp not skipped')
M(P,'series_to_duration','| None => Ok None','| None => Ok (Some 0%Z)','C94','missing time becomes the epoch')
M(P,'from_df','low <- df_column df "low"','low <- df_column df "high"','C94','low read from high')
M(P,'from_df','(series_to_f64 open) (series_to_f64 high)','(series_to_f64 high) (series_to_f64 open)','C94','open and high swapped')
M(P,'from_df','(series_to_f64 close)','close','C94','NaN closes kept')
M(P,'example_config','(fZ 1000)','(fZ 100)','C93','wrong capital')
M(P,'app_new','(osc_strategy_new (fZ 50) (fZ 50))','(osc_strategy_new (fZ 30) (fZ 70))','C93','wrong thresholds')
M(P,'app_new','tv_new s (fZ 0)','tv_new s tv_default_rfr','C93','default risk-free rate')
M(P,'app_step','tv_step c (ap_metrics a) s','tv_step c (ap_metrics a) (ap_strategy a)','C93','metrics of the previous bar')
M(P,'app_step','let c := ctx_set_index c i in','let c := ctx_set_index c (S i) in','C93','loop body looks at the next bar')
R='MReport'
for d,o,n,w in [('cobra_dd_theme','(lit (-25) 100) (lit (-40) 100)','(lit (-40) 100) (lit (-25) 100)','thresholds swapped'),('cobra_sortino_theme','(fZ 3) (fZ 2)','(fZ 3) (fZ 1)','lower threshold'),('cobra_sharpe_theme','(lit 3 2)','(fZ 2)','upper threshold'),('cobra_pf_theme','(fZ 4) (fZ 2)','(fZ 2) (fZ 4)','swapped'),('cobra_profitable_theme','(lit 50 100)','(lit 60 100)','threshold'),('cobra_trades_theme','(n <=? 80)','(n <? 80)','boundary'),('cobra_trades_theme','(n <? 15)','(n <=? 15)','boundary'),('above','fgtb x hi then 1%Z else if x <? lo','fgtb x hi then (-1)%Z else if x <? lo','colour inverted'),('theme_of','if z =? -1 then Red','if z =? -1 then Green','red never shown'),('cobra_print','cobra_sortino_theme (cb_sortino b)','cobra_sortino_theme (cb_sharpe b)','row shows another figure'),('tv_print_overview','above (fZ 1) (fZ 1) (tv_profit_factor d)','above (fZ 1) (fZ 0) (tv_profit_factor d)','losing factor neutral'),('tv_print_overview','(tv_percent_profitable d)','(tv_profit_factor d)','wrong figure')]:
    M(R,d,o,n,'C95',w)
M(R,'to_colored_string','negb (t_closed t)','t_closed t','C96','open and exit swapped')
M(R,'to_colored_string','if (tick =? x)%nat then LExit','if (x <=? tick)%nat then LExit','C96','exit label on every later bar')
M(R,'get_triangle','match t_dir t with Long => DownRed | Short => UpGreen end','match t_dir t with Long => UpGreen | Short => DownRed end','C96','exit marker in the trade direction')
M(R,'get_triangle','negb (t_closed t) && is_at_entry t tick','is_at_entry t tick','C96','entry triangle after closing')
M(R,'get_triangle','| Some _ => DashBlack','| Some _ => DashGreen','C96','closed trade green')
C='MContent'
for d,o,n in [('aroon_default','14','15'),('cmf_default','20','21'),('cks_default','10 9','9 10'),('cmo_default','9','10'),('chop_default','14','13'),('cci_default','SHLC3','SClose'),('crsi_default','3 2 100','2 3 100'),('crsi_default','3 2 100','3 2 101'),('dmi_default','14 14','14 15'),('don_default','20','10'),('rvgi_default','10','14'),('rvoli_default','10 14','14 10'),('srsi_default','14 14 3 3','14 14 3 4'),('wpr_default','14','10'),('vortex_default','14','28'),('bb_default','SClose','SHLC3'),('cop_default','14 11 10','11 14 10'),('uo_default','7 14 28','7 14 27')]:
    M(C,d,o,n,'C97','wrong default')
for d,o,n in [('zero_strategy_default','(fZ 0) (fZ 0)','(fZ 0) (fZ 1)'),('bbpb_strategy_default','(fZ 0) (fZ 1)','(fZ 1) (fZ 0)'),('cmo_strategy_default','(fZ (-50))','(fZ (-40))'),('cci_strategy_default','(fZ 200)','(fZ 100)'),('crsi_strategy_default','(fZ 80)','(fZ 70)'),('rsi_strategy_default','(fZ 30)','(fZ 20)'),('rvoli_strategy_default','(fZ 20)','(fZ 30)'),('srsi_strategy_default','(fZ 80)','(fZ 70)'),('wpr_strategy_default','(fZ (-20))','(fZ (-10))'),('dmi_strategy_default','(fZ 25)','(fZ 20)')]:
    M(C,d,o,n,'C48 C49 C97 C50','wrong default threshold')
S='MStrategy'
M(S,'strategy_step','if t_closed last then Ok m','if t_closed last then Ok (metrics_set_open m (sm_net m))','C31 C85 C86','open profit not cleared while flat')
M(S,'strategy_fill','sc_capital cfg + sm_net m + sm_open m','sm_equity m','C35 C81 C86','sizes from the last marked equity')
M(S,'strategy_fill','else Ok (fZ 1)','else Ok (fZ 2)','C35 C80','two units')
M(S,'metrics_close','(fZ 0)','(sm_open m)','C31 C85','open profit kept at close',occ=1)
M(S,'fill_size','equity / price','price / equity','C35 C86','inverted size')
M(S,'trade_pnl','(price - fill_price)','(fill_price - price)','C30 C83','short profit sign')
X='MMetrics'
M(X,'equity_step','(highest_price, lowest_price)','(lowest_price, highest_price)','C36 C90','short band not mirrored')
M(X,'equity_step','(net + bop_min) (net + bop_max)','(eq + bop_min) (eq + bop_max)','C36 C91 C90','band around the marked equity')
M(X,'cobra_step','let pos := fmax (fZ 0) ret','let pos := fabs ret','C92','losses count as gains')
M(X,'cobra_step','(by_ <? y)','(by_ <=? y)','C92','start year excluded')
M(X,'cobra_step','else\n      let','else\n      let','C92','identity (control)') if False else None
M(X,'cobra_new','(fsqrt (fZ 365))','(fsqrt (fZ 252))','C92','trading days')
M(X,'cobra_new','z (sstdev_build estimated) z k z','z (sstdev_build false) z k z','C92','slow downside deviation')
M(X,'cobra_step','(cb_neg_stdev b) (cb_neg_sum b) prev','(cb_neg_stdev b) (cb_neg_sum b) (cb_prev_equity b)','C92','equity not advanced while skipping')
M(X,'cobra_on_exit','fmax pct (cb_intra_dd b)','fmin pct (cb_intra_dd b)','C90','smallest instead of largest')
M(X,'cobra_step','fmin (e_equity eqm / e_equity_max eqm - fZ 1)','fmin (e_net eqm / e_net_max eqm - fZ 1)','C37 C38 C40 C89 C92','drawdown of the net equity')
M('MStats','find_index','usub (length arr) 1','Ok 0','C88','all missing gives 0')
M('MStats','find_min_index','v <? m','v <=? m','C88','last minimum')
M('MTa','ema_with_alpha','Ok (mkEma alpha len s None)','Ok (mkEma (fZ 1 - alpha) len s None)','C11','alpha complemented')
M('MTa','ema_with_alpha','(1 <=? len)','(2 <=? len)','C11 C87','length 1 rejected')
K='MCore'
M(K,'at_length','','','C78','x') if False else None
M(K,'ctx_new','','','','x') if False else None
