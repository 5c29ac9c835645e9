MUTANTS=[]
def M(f,d,old,new,claims,what,**k):
    MUTANTS.append(dict(id=f'{f}.{d}.x{len(MUTANTS)}',file=f+'.v',**{'def':d},old=old,new=new,claims=claims.split(),what=what,**k))
C='MCommon';K='MCore';N='MContent';A='MTa';T='MStrategy';R='MMetrics'
M(N,'bbpb_value','let lower := basis - dev in','let lower := basis - dev * dev in','C128','squared deviation below')
M(N,'bbpb_value','let upper := basis + dev in','let upper := basis in','C128','upper band at the basis')
M(N,'bbpb_value','(src - lower) / diff','(upper - src) / diff','C128','measured from the top')
M(N,'bbpb_value','let dev := dev * mult in','let dev := mult - dev in','C128','difference instead of product')
M(N,'bbpb_value','(src - lower) / diff','(src - basis) / diff','C128','measured from the basis')
M(N,'bbw_value','(upper - lower) / basis','(lower - upper) / basis','C128','sign of the width')
M(N,'bbw_value','(upper - lower) / basis','(upper - lower) / fabs basis','C128','width always positive')
M(N,'rvoli_value','u / (u + l) * fZ 100','u / (u - l) * fZ 100','C128','difference in the denominator')
M(N,'rvoli_value','u / (u + l) * fZ 100','u / l * fZ 100','C128','ratio of the two')
M(N,'rvoli_lower','then Some (fZ 0) else sd','then Some (fZ 0) else change','C128','the (negative) change instead of the deviation')
M(N,'rvoli_upper','if ch <=? fZ 0 then Some (fZ 0) else sd','Some ch','C128','the change instead of the deviation')
M(N,'rvgi_step','ps_diff cl op','ps_diff op cl','C128','sign')
M(N,'rvgi_step','sum_step c (rg_shl s) hl_swma','sum_step c (rg_shl s) co_swma','C128','always one')
M(A,'sum_step','let sum := match','let sum := match','C128','(control: no change)')
M(T,'trade_pnl','(price - fill_price) * size * multiplier','(price - fill_price + fZ 1) * size * multiplier','C125 C126','a fixed fee per unit')
M(T,'trade_pnl','(price - fill_price) * size * multiplier','(price - fill_price) * multiplier','C126 C127','size ignored')
M(T,'fill_size','(price <=? fZ 0)','(price <=? fZ 1)','C125 C126','no position below a price of one')
M(T,'fill_size','else equity / price','else price / equity','C125 C126','inverted')
M(T,'metrics_close','if lose then sm_gross_loss m + fabs pnl else sm_gross_loss m','if lose then sm_gross_loss m + pnl else sm_gross_loss m','C127','gross loss negative')
M(T,'metrics_close','if win then sm_gross_profit m + pnl else sm_gross_profit m','sm_gross_profit m + pnl','C127','losses counted in the gross profit')
M(T,'metrics_close','fgtb pnl (fZ 0)','negb (pnl <? fZ 0)','C127','NaN and flat trades win')
M(T,'metrics_close','if win then sm_gross_profit m + pnl else sm_gross_profit m','if win then pnl else sm_gross_profit m','C127','gross profit of the last winner')
M(T,'metrics_close','if lose then sm_gross_loss m + fabs pnl','if lose then sm_gross_loss m','C127','gross loss never grows')
M(R,'profit_factor','Some (gp / gl)','Some ((gp - gl) / gl)','C127','net over loss')
M(R,'avg_winning_trade','Some (gp / fnat n)','Some (gp * fnat n)','C127','total of totals')
M(R,'avg_win_loss_ratio','Some (w / l)','Some (w - l)','C127','difference')
M(R,'percent_profitable','Some (fnat profitable / fnat total)','Some (fnat total / fnat profitable)','C127','inverted')
M(R,'sharpe_ratio','(mean - rfr) / sd','(rfr - mean) / sd','C127','sign')
M(R,'sortino_ratio','(mean - rfr) / nsd','(mean + rfr) / nsd','C127','risk-free rate added')
M(R,'omega_ratio','(pos - rfr) / neg','(pos - rfr) / (neg - pos)','C127','wrong denominator')
M(R,'cobra_step','e_equity eqm / e_equity_max eqm - fZ 1','fZ 1 - e_equity eqm / e_equity_max eqm','C127','sign of the drawdown')
M(R,'cobra_step','fmin (e_equity eqm / e_equity_max eqm - fZ 1) (cb_eq_max_dd b)','e_equity eqm / e_equity_max eqm - fZ 1','C127','drawdown of the bar, not the deepest')
M(R,'cobra_step','e_equity eqm / e_equity_max eqm - fZ 1','e_net eqm / e_equity_max eqm - fZ 1','C127','closed profit instead of equity')
M(R,'tv_step','fmax (e_net_max eqm - e_bar_min eqm) (tv_max_drawdown d)','(e_net_max eqm - e_bar_min eqm)','C127','not the deepest')
M(R,'tv_step','fmax (e_bar_max eqm - e_net_min eqm) (tv_max_run_up d)','fmin (e_bar_max eqm - e_net_min eqm) (tv_max_run_up d)','C127','smallest run-up')
M(R,'equity_step','| Short => (highest_price, lowest_price)','| Short => (lowest_price, highest_price)','C127 C126','short band not swapped')
M(R,'equity_step','b <- trade_cur_pnl last hi','b <- trade_cur_pnl last lo','C127','band of width zero')
M(R,'cobra_on_exit','fmax pct (cb_intra_dd b)','pct','C127 C126','(control: not negative either)')
M(R,'cobra_on_exit','let pct := cb_cur_dd b / price in','let pct := cb_cur_dd b in','C126','in money, not a fraction')
M(R,'returns_of','current / previous - fZ 1','current - previous','C126','absolute return')
M(R,'returns_of','current / previous - fZ 1','previous / current - fZ 1','C127 C126','inverted return (control for scale)')
M(R,'max_drawdown_percent','dd / net_max','dd','C126','not a percentage')
M(R,'net_profit_percent','x / capital','x','C126','not a percentage')
M(R,'tv_step','(sharpe_ratio (r_mean ret) (r_stdev ret) (tv_rfr t))','(sharpe_ratio (r_mean ret) nsd (tv_rfr t))','C126 C127','downside deviation in Sharpe')
M(A,'sma_new','fnat len','fZ 1','C125','(control for scale: sum)')
M(A,'change_step','Some (l - f)','Some (l - f + fZ 1)','C125','offset')
M(A,'rsi_step','fZ 1 + rs','fZ 1 + rs + up\'','C125','not a pure ratio')
M(N,'cci_step','','','C125','skip')
MUTANTS=[m for m in MUTANTS if m['old']!=m['new']]
