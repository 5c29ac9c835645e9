MUTANTS=[]
def M(f,d,old,new,claims,what,**k):
    MUTANTS.append(dict(id=f'{f[:-2]}.{d}.{len(MUTANTS)}',file=f,**{'def':d},old=old,new=new,claims=claims.split(),what=what,**k))
T='MTa.v'
M(T,'sma_step','sum - f','sum','C09','oldest value never leaves the sum')
M(T,'sma_step','is_filled && is_valid','is_filled','C09 C08','gap in the window not noticed')
M(T,'sma_step','then Ok (s, value)','then Ok (s, None)','C09','length-1 average gives nothing')
M(T,'sma_new','fnat len','fnat (len - 1)','C09','divides by length-1')
M(T,'sma_new','_ <- assertb (1 <=? len)%nat ;;','','C09','zero length accepted')
M(T,'sum_step','is_filled && is_valid','is_valid','C10','partial sums reported')
M(T,'sum_step','let out := if is_filled && is_valid then Some acc','let out := if is_filled && is_valid then Some (su_sum s)','C10','sum without the newest value')
M(T,'ema_new','fnat len + fZ 1','fnat len','C11','alpha 2/len')
M(T,'ema_step','(fZ 1 - ema_alpha s) * prev','prev','C11','decay dropped')
M(T,'ema_step','(ema_sma s) (Some ema), Some ema','(ema_sma s) (ema_prev s), Some ema','C11','previous value not updated')
M(T,'ema_step','l1 <- usub (ema_len s) 1 ;;','l1 <- Ok (ema_len s) ;;','C11','warm-up differs')
M(T,'rma_new','fZ 1 / fnat len','fZ 2 / fnat len','C12','alpha doubled')
M(T,'swma_weights','fZ 2 / fZ 6; fZ 2 / fZ 6; fZ 1 / fZ 6','fZ 2 / fZ 6; fZ 1 / fZ 6; fZ 2 / fZ 6','C15','weights not symmetric')
M(T,'swma_step','negb at_len || negb is_valid','negb at_len','C15 C69','gap makes it panic')
M(T,'wma_fold','fnat (d * len)','fnat (i * len)','C14','weights reversed')
M(T,'wma_step','rev (wc_all cache)','(wc_all cache)','C14','newest and oldest swapped')
M(T,'change_new','len + 1','len','C16','one bar too short')
M(T,'change_step','if f ==? fZ 0 then Ok (cache, None)\n      else l <- unwrap last_value ;; Ok (cache, Some (l - f))','l <- unwrap last_value ;; Ok (cache, Some (l - f))','C16','zero check removed')
M(T,'change_step','l - f','f - l','C16','sign')
M(T,'roc_step','(l - f) / f','(l - f) / l','C17','divides by the new value')
M(T,'roc_new','len + 1','len','C17','one bar too short')
M(T,'dev_step','fabs (match v with Some x => x | None => mean end - mean)','(match v with Some x => x | None => mean end - mean)','C20','signed deviations')
M(T,'dev_step','fnat (dv_len s)','fnat (dv_len s - 1)','C20','divides by length-1')
M(T,'stdev_step','let mean := - mean in','let mean := mean in','C20','mean added')
M(T,'stdev_step','if sd_biased s then Ok (s\', Some (fsqrt (sum / fnat (sd_len s))))','if negb (sd_biased s) then Ok (s\', Some (fsqrt (sum / fnat (sd_len s))))','C20','bias flag inverted')
M(T,'stdev_compute_sum','lit 1 10000000000','lit 1 10','C20','snapping threshold far too large')
M(T,'stdev_compute_sum','then fZ 0 else sum','then sum else sum','C20','no snapping')
M(T,'bars_offset','abs_diff (abs_diff len index) 1','abs_diff len index','C19','offset off by one')
M(T,'lowest_bars','find_min_index','find_max_index','C19','lowest finds highest')
M(T,'highest','vget series i','vget series 0','C18','returns the oldest value')
M(T,'highest_step','if negb at_len then','if at_len then','C18','guard inverted')
M(T,'lowest_step','v <- lowest (wc_all (wi_cache s\'))','v <- lowest (wc_all (wi_cache s))','C18','current value missing from the window')
M(T,'highest_bars_step','ctx_highs','ctx_lows','C19','looks at lows')
M(T,'prank_new','len + 1','len','C21','window one short')
M(T,'prank_step','x <=? last','x <? last','C21','ties not counted')
M(T,'prank_step','vslice all 0 n1','vslice all 1 (length all)','C21','current value counted, oldest not')
M(T,'prank_step','fnat (wi_len s)','fnat (wi_len s + 1)','C21','wrong total')
M(T,'rsi_step','- fmin change (fZ 0)','fmin change (fZ 0)','C22','losses negative')
M(T,'rsi_step','let rs := up\' / down\' in','let rs := down\' / up\' in','C22','ratio inverted')
M(T,'rsi_step','Ok (mkRsi u d value up down, Some rsi)','Ok (mkRsi u d (rsi_prev s) up down, Some rsi)','C22','previous value frozen')
M(T,'rsi_new','(2 <=? len)','(1 <=? len)','C22','length 1 accepted')
M(T,'stoch','Ok prev','Ok (Some (fZ 0))','C23','flat window gives 0 instead of previous')
M(T,'stoch','(v - l) / diff','(h - v) / diff','C23','inverted')
M(T,'stoch_step','Ok (mkStoch (st_len s) r hc lc, r)','Ok (mkStoch (st_len s) (st_prev s) hc lc, r)','C23','previous never stored')
M(T,'stoch_step','wc_push (st_low s) low','wc_push (st_low s) high','C23','low window fed with highs')
M(T,'true_range','fabs (cl - pc)','(cl - pc)','C24','abs dropped')
M(T,'true_range','if handle_na then Some (ch - cl) else None','Some (ch - cl)','C24','flag ignored')
M(T,'tr_step','ctx_close c 1','ctx_close c 2','C24','close two bars ago')
M(T,'atr_new','mkAtr true r','mkAtr false r','C24','first bar missing')
M(T,'cross_over','pa <=? pb','pa <? pb','C25','touching does not count')
M(T,'cross_over','fgtb ca cb','fgeb ca cb','C25','touch counts as crossing')
M(T,'cross_under','fgeb pa pb','fgtb pa pb','C25','touching does not count')
M(T,'cross_step','Ok (x, r)','Ok (s, r)','C25','previous pair frozen')
M(T,'crossover_step','cross_over a b pa pb','cross_over a b pb pa','C25','previous values swapped')
M(T,'crossunder_step','cross_under a b pa pb','cross_over a b pa pb','C25','under detects over')
M(T,'crossover_t_step','mkCrossT t value','mkCrossT t (match value with Some _ => value | None => ct_prev s end)','C25','previous survives gaps')
M(T,'crossunder_t_step','cross_under v t p t','cross_under t v p t','C25','threshold and value swapped')
M(T,'cross_t_step','then Some Under else None','then Some Over else None','C25','reports the wrong side')
M(T,'ma_new','| RMA => s <- rma_new len','| RMA => s <- ema_new len','C27 C12','RMA built as EMA')
S='MStrategy.v'
M(S,'get_opposite','Long => Short','Long => Long','C36','opposite of long is long')
M(S,'trade_direction_from_f64','Some Short else None','Some Short else Some Long','C36','any number is long')
M(S,'trade_direction_to_f64','Some Short => fZ (-1)','Some Short => fZ 1','C36','short encodes as long')
M(S,'trade_pnl','fZ (-1)','fZ 1','C35 C30','shorts earn like longs')
M(S,'fill_size','equity / price','price / equity','C35','inverted size')
M(S,'fill_size','(price <=? fZ 0)','(price <? fZ 0)','C35','division by a zero price')
M(S,'metrics_close','fgtb pnl (fZ 0)','fgeb pnl (fZ 0)','C30','break-even counted as win')
M(S,'metrics_close','sm_gross_loss m + fabs pnl','sm_gross_loss m + pnl','C30','gross loss negative')
M(S,'metrics_close','      (fZ 0)\n','      (sm_open m)\n','C31 C30','open profit kept after the close')
M(S,'metrics_close','sm_short_net m + pnl','sm_long_net m + pnl','C30','short net from the wrong base')
M(S,'metrics_close','(sm_closed m + 1)','(sm_closed m)','C30','closed trades not counted')
M(S,'strategy_fill','negb same && negb (t_closed last) in','negb (t_closed last) in','C32 C28 C33','same-direction signal closes')
M(S,'strategy_fill','if sc_continuous cfg then negb same && close_trade','if sc_continuous cfg then negb same','C32 C28','continuous reopen without close')
M(S,'strategy_fill','else t_closed last && (same || (negb same && negb close_trade))','else negb close_trade','C33 C28','pyramiding in non-continuous mode')
M(S,'strategy_fill','(Some tick) price (t_fill last) pnl in','(Some (S tick)) price (t_fill last) pnl in','C29','exit tick off by one')
M(S,'strategy_fill','Ok (trades ++ [t], m, Some t, on_exit)','Ok (trades ++ [t], m, None, on_exit)','C34','entry event lost')
M(S,'strategy_fill','Ok (trades ++ [t], m, Some t, on_exit)','Ok (trades ++ [t], m, Some t, None)','C34','exit event lost on reversal')
M(S,'strategy_fill','sc_capital cfg + sm_net m + sm_open m','sc_capital cfg','C35','size ignores profits')
M(S,'strategy_step','if sc_on_close cfg then close else open','open','C29','always fills at the open')
M(S,'strategy_step','let unfilled := if sc_on_close cfg then unfilled else dir in','let unfilled := unfilled in','C29','signal of this bar forgotten')
M(S,'strategy_step','let unfilled := if sc_on_close cfg then dir else s_unfilled s in','let unfilled := match s_unfilled s with Some d => Some d | None => dir end in','C29','order filled the same bar')
M(S,'strategy_step','if t_closed last then Ok m','if t_closed last then Ok (metrics_set_open m (fZ 1))','C31','open profit while flat')
M(S,'strategy_step','px <- unwrap close ;;','px <- unwrap open ;;','C31','marked at the open')
M(S,'strategy_step','(sc_capital cfg + sm_net m + sm_open m)','(sc_capital cfg + sm_net m)','C31','equity without the open trade')
M(S,'sconfig_default','mkSConfig false true','mkSConfig true true','C29','default fills on close')
M(S,'is_active','negb (t_closed t)','t_closed t','C28','active means closed')
M(S,'is_at_exit','t_exit_tick','t_entry_tick','C34 C28','looks at the entry tick')
X='MMetrics.v'
M(X,'year_of_days','306 <=? doy','305 <=? doy','C73','Dec 31 in next year')
M(X,'year_of_days','doe / 36524','doe / 36525','C73','century rule off')
M(X,'bar_year','ns / 1000000','ns / 1000','C73','microseconds taken as milliseconds')
M(X,'percent_profitable','fnat profitable / fnat total','fnat total / fnat profitable','C39','inverted')
M(X,'profit_factor','if gl ==? fZ 0 then None else','if gp ==? fZ 0 then None else','C39','wrong zero check')
M(X,'long_net_profit_ratio','fZ (-1)','fZ 1','C40 C39','sign')
M(X,'returns_of','(previous ==? fZ 0) || (current ==? fZ 0)','(previous ==? fZ 0)','C40','zero equity check dropped')
M(X,'sharpe_ratio','mean - rfr','mean + rfr','C39 C40','risk-free rate added')
M(X,'omega_ratio','(pos - rfr) / neg','neg / pos','C40','inverted')
M(X,'equity_step','fmin (e_net_min e) net','fmax (e_net_min e) net','C37','minimum never falls')
M(X,'equity_step','fmax (e_equity_max e) eq','eq','C37','maximum forgotten')
M(X,'equity_step','Short => (highest_price, lowest_price)','Short => (lowest_price, highest_price)','C37','short extremes swapped')
M(X,'equity_step','(net + bop_min) (net + bop_max)','(net + bop_min) (net + bop_min)','C37','bar maximum wrong')
M(X,'equity_step','sc_capital (s_config s) + sm_net (s_metrics s)','sm_net (s_metrics s)','C37','capital dropped')
M(X,'returns_next','mkReturns delta sd mn (r_prev s) ss ms','mkReturns delta sd mn v ss ms','C72','prev updated (the fix)')
M(X,'returns_next','mean_next (r_mean_st s) delta','mean_next (r_mean_st s) v','C72','mean of values, not of returns')
M(X,'tv_step','fmax (e_net_max eqm - e_bar_min eqm) (tv_max_drawdown d)','(e_net_max eqm - e_bar_min eqm)','C38','drawdown may shrink')
M(X,'tv_step','fmax (e_bar_max eqm - e_net_min eqm) (tv_max_run_up d)','fmin (e_bar_max eqm - e_net_min eqm) (tv_max_run_up d)','C38','run-up may shrink')
M(X,'tv_step','max_drawdown_percent mdd (e_net_max eqm)','max_drawdown_percent mru (e_net_max eqm)','C39 C38','percent of the wrong number')
M(X,'tv_step','(sm_closed m) (sm_winning m) (sm_losing m)','(sm_closed m) (sm_losing m) (sm_winning m)','C39','wins and losses swapped')
M(X,'tv_step','(tv_equity_history d ++ [e_equity eqm])','(if exited then tv_equity_history d ++ [e_equity eqm] else tv_equity_history d)','C39','equity history only on exits')
M(X,'tv_step','(fabs (fmin (fZ 0) (r_delta ret)))','(fabs (fmax (fZ 0) (r_delta ret)))','C39','upside deviation')
M(X,'tv_new','(returns_build k false)','(returns_build (fZ 0) false)','C39 C72','returns relative to zero')
M(X,'cobra_step','fmin (e_equity eqm / e_equity_max eqm - fZ 1) (cb_eq_max_dd b)','fmax (e_equity eqm / e_equity_max eqm - fZ 1) (cb_eq_max_dd b)','C40','drawdown always 0')
M(X,'cobra_step','(by_ <? y)','(by_ <=? y)','C40 C73','start year excluded')
M(X,'cobra_step','let pos_sum := cb_pos_sum b + pos in','let pos_sum := pos in','C40','positive returns not accumulated')
M(X,'cobra_step','sharpe_ratio rmean rsd (cb_rfr b) * cb_annualized b','sharpe_ratio rmean nsd (cb_rfr b) * cb_annualized b','C40','sharpe uses downside deviation')
M(X,'cobra_step','let prev := e_equity eqm in','let prev := cb_prev_equity b in','C40','previous equity frozen')
M(X,'cobra_on_exit','fmax pct (cb_intra_dd b)','pct','C40','max trade drawdown forgotten')
M(X,'cobra_on_exit','(fZ 0) (cb_annualized b)','(cb_cur_dd b) (cb_annualized b)','C40','current drawdown not reset')
M(X,'cobra_on_exit','(sm_closed m) (cb_omega b)','(sm_winning m) (cb_omega b)','C40','trade count counts wins')
M(X,'cobra_new','fZ 365','fZ 252','C40','annualisation constant')
