MUTANTS=[]
def M(f,d,old,new,claims,what,**k):
    MUTANTS.append(dict(id=f'{f}.{d}.z{len(MUTANTS)}',file=f+'.v',**{'def':d},old=old,new=new,claims=claims.split(),what=what,**k))
P='MPrint';X='MFixture';S='MStrategy';E='MMetrics';T='MStats'
M(P,'whole','if Z.even q then q else q + 1','q + 1','C110','ties away from zero')
M(P,'whole','| Gt => q + 1','| Gt => q','C110','truncates')
M(P,'unpadded','n <? 10','n <=? 10','C110','10 printed as 0')
M(P,'padded','n mod 10','n mod 9','C110','wrong digit')
M(P,'decimal','padded k (n mod','padded (k - 1) (n mod','C110','one decimal too few')
M(P,'decimal','padded k (n mod 10 ^ Z.of_nat k)','unpadded (S (Z.to_nat (Z.log2 (n mod 10 ^ Z.of_nat k)))) (n mod 10 ^ Z.of_nat k)','C110','zeros after the point dropped')
M(P,'scaled','(2 ^ (- e))','(2 ^ (- e + 1))','C110','halved')
M(P,'scaled','m * 2 ^ e * 10','m * 2 * e * 10','C110','large figures wrong')
M(P,'minus','if s then "-" else ""','""','C110','sign dropped')
M(P,'show_count','unpadded (S','unpadded (0','C110','counts empty')
M(P,'hundred','f64_ofZ 100','f64_ofZ 10','C110','percent times 10')
M(P,'f_percent','"%"','""','C110','no unit')
M(P,'f_price','" " ++ currency','currency','C110','unit glued')
M(P,'print_summary','("Gross Loss", f (tv_gross_loss d) (hundred (tv_gross_loss_percent d)))','("Gross Loss", f (tv_gross_profit d) (hundred (tv_gross_loss_percent d)))','C110','wrong figure in a row')
M(P,'print_summary','show_count (tv_losing d)','show_count (tv_winning d)','C110','wins printed as losses')
M(P,'print_summary','("Sortino Ratio", show_fixed 3 (tv_sortino d))','("Sortino Ratio", show_fixed 3 (tv_sharpe d))','C110','Sharpe printed twice')
M(P,'print_overview','f_percent (hundred (tv_percent_profitable d))','f_percent (tv_percent_profitable d)','C110','fraction printed as percent')
M(P,'print_overview','(tv_max_drawdown d)','(tv_max_run_up d)','C110','run-up for drawdown')
M(P,'cobra_print_text','f_raw (f64_ofZ (Z.of_nat (cb_trades b)))','f_percent (f64_ofZ (Z.of_nat (cb_trades b)))','C110','count with a percent sign')
M(P,'cobra_print_text','f_percent (hundred (cb_profitable b))','f_percent (hundred (cb_profit_factor b))','C110','profit factor for hit rate')
M(S,'cell_to_trade_dir','trade_direction_from_f64 v','trade_direction_from_f64 (option_map fabs v)','C111','shorts read as longs')
M(S,'cell_to_trade_dir','if fisnan x then None','if fisnan x then Some Long','C111','NaN read as long')
M(X,'test_target','"_target_"','"close"','C111','compares with the closes')
M(X,'test_target','Ok (series_to_f64 col)','Ok (tl (series_to_f64 col))','C111','first cell dropped')
M(X,'golden','assert_iter false cmp os e','assert_iter false cmp os os','C111','compares the outputs with themselves')
M(X,'golden','(fun _ => tt) c s','(fun _ => tt) (ctx_set_running c true) s','C111','equivalent? running flag already set')
M(X,'fed','(snd s) a ;;','(snd s) a ;; let s1 := fst s in','C111','indicator state lost')
M(T,'wvar_next','delta * (v - m)','delta * (v - wf_mean s)','C109 C41','old mean twice')
M(T,'wvar_next','d / (fnat n - fZ 1)','(d - fZ 1) / (fnat n - fZ 1)','C109 C41','can be negative')
M(T,'var_from_mean','fsq (x - m)','(x - m)','C109 C41','not squared')
M(T,'stdev_from_var','fsqrt v','v','C109 C41','no root')
M(T,'mean_next','sum / fnat n','sum / fnat (mn_n s)','C109 C41','divides by the previous count')
M(S,'fill_size','(equity <=? fZ 0) || ','','C108 C36','short-sale of the account')
M(S,'fill_size','equity / price','fZ 1000 / price','C108 C36','fixed stake')
M(S,'trade_pnl','* size * multiplier','* multiplier','C108 C35','size ignored')
M(S,'metrics_close','fgtb pnl (fZ 0)','fgtb pnl (fZ 1)','C108 C30','threshold of one currency unit')
M(S,'strategy_step','sc_capital cfg + sm_net m + sm_open m','fZ 1000 + sm_net m + sm_open m','C108 C30','capital hard-coded')
M(E,'max_drawdown_percent','dd / net_max','dd','C108 C39','not a ratio')
M(E,'max_run_up_percent','ru / bar_max','ru / (bar_max + fZ 1)','C108 C39','offset')
M(E,'equity_step','(net + bop_min) (net + bop_max)','(net + bop_min) (net + bop_max + fZ 1)','C108 C91','offset in currency')
M(E,'tv_step','fmax (e_net_max eqm - e_bar_min eqm) (tv_max_drawdown d)','fmax (fmax (e_net_max eqm - e_bar_min eqm) (fZ 1)) (tv_max_drawdown d)','C108 C38','drawdown floored at one unit')
M(E,'cobra_step','e_net eqm - e_bar_min eqm','e_equity eqm - e_bar_min eqm','C108 C90','equity for net')
M(E,'omega_ratio','(pos - rfr)','(pos + fZ 1)','C108 C39','offset')
M(E,'cobra_on_exit','cb_cur_dd b / price','cb_cur_dd b','C108 C90','not divided')
