MUTANTS=[]
def M(f,d,old,new,claims,what,**k):
    MUTANTS.append(dict(id=f'{f}.{d}.y{len(MUTANTS)}',file=f+'.v',**{'def':d},old=old,new=new,claims=claims.split(),what=what,**k))
C='MCommon';K='MCore';N='MContent';X='MFixture';S='MStrategy';E='MMetrics';T='MStats';P='MPrint';A='MTa';G='MTesting';L='MPlot'
# common
M(C,'timeframe_into','FourHours => 1 | OneHour => 2','FourHours => 2 | OneHour => 1','C36','two timeframes swapped')
M(C,'ic_push','s ++ [v]','v :: s','C06','pushes at the front')
M(C,'ic_all',': list T := s',': list T := rev s','C06','newest first')
M(C,'ic_first','nth_error s 0','nth_error s 1','C06','second value')
M(C,'wc_push','wc_vals w ++ [v]','v :: wc_vals w','C05','pushes at the front')
M(C,'wc_push','(wc_vals w ++ [v])','(skipn (length (wc_vals w) - wc_len w) (wc_vals w) ++ [v])','C05','evicts: length is no longer the number of pushes')
M(C,'wc_get','j <- usub l1 i','j <- usub (length (wc_vals w)) i','C05','one position off')
M(C,'wc_last','nth_error (rev (wc_vals w)) 0','nth_error (rev (wc_vals w)) 1','C05','previous value')
M(C,'wc_size','length (wc_vals w)','wc_len w','C05','capacity instead of the number of values')
M(C,'wc_normalize','None => None | Some x => x','None => None | Some x => match x with None => None | Some y => Some y end','C05','equivalent rewriting (control: must survive)')
M(C,'wc_get_unwrapped','wc_get w i','wc_get w 0','C05','always the newest value')
M(C,'wc_last_unwrapped','wc_normalize (wc_last w)','None','C05','always missing')
M(C,'wc_first_unwrapped','Ok (wc_normalize v)','Ok (wc_last_unwrapped w)','C05','newest instead of oldest')
M(C,'position_new',': nat := 0',': nat := 1','C78','counts from one')
M(C,'fixnan_new','None','Some (fZ 0)','C07','starts at zero')
M(C,'wv_new','1 <=? len','2 <=? len','C87 C08','rejects length 1')
M(C,'wv_new','mkWV len 0 false','mkWV len 0 true','C08','starts as if a gap had been seen')
M(C,'src_step','src_value k c','src_value SClose c','C46','always the close')
# core
M(K,'ctx_set_index','(c_bars c) i (c_running c)','(c_bars c) i false','C01','moving stops the run')
M(K,'ctx_set_running','(c_index c) b','(c_index c) true','C01','equivalent? never set to false (control)')
M(K,'bar_open','p_open (c_data c)','p_close (c_data c)','C78 C46 C03','close for open')
M(K,'bar_high','(c_index c)','(c_index c - 1)','C78 C46','previous bar')
M(K,'bar_low','p_low (c_data c)','p_high (c_data c)','C46','high for low')
M(K,'bar_close','p_close (c_data c)','p_open (c_data c)','C46','open for close')
M(K,'bar_volume','p_volume (c_data c)','p_close (c_data c)','C46','close for volume')
M(K,'bar_volume','(c_index c)','(c_index c + 1)','C26 C46','next bar')
M(K,'ctx_high','p_high','p_low','C03','low for high')
M(K,'ctx_highs','p_high','p_close','C03','closes for highs')
M(K,'ctx_lows','p_low','p_high','C03','highs for lows')
M(K,'ctx_closes','c len','c (len - 1)','C03','one bar too few')
M(K,'ctx_advance','S (c_index c)','c_index c','C01 C26 C46 C03','the bar never moves')
M(K,'loop',"(c', None) => Some (Ok (c', s, []))","(c', None) => Some (Ok (c, s, []))",'C01','context left at the last bar')
M(K,'loop',"loop fuel' step input c' s'","loop fuel' step input c' s",'C01','state lost between bars')
M(K,'run_st',"step (ctx_advance c) s1 t","step c s1 t",'C46 C19 C24','context does not move')
M(K,'box','Ok (box step s\', o)','Ok (box step s, o)','C27','boxed state never advances')
# content
M(N,'src_box','box (src_step k) tt','box (src_step SClose) tt','C58 C97 C60','every source is the close')
M(N,'aroon_new','l <- lowest_bars_new len','l <- lowest_bars_new (S len)','C47','low window one longer')
M(N,'ao_new','mkAo ssrc lsrc sma lma None','mkAo lsrc ssrc sma lma None','C58','sources swapped')
M(N,'ao_new','sma lma None','sma lma (Some (fZ 0))','C58','previous value starts at zero')
M(N,'bop_step','op <- bar_open c','op <- bar_close c','C53','open read from close')
M(N,'bbpb_step','sma_step c (bb_basis s) src','sma_step c (bb_basis s) None','C59','basis not fed')
M(N,'bbpb_step','(mkBb ss (bb_mult s) b d,','(mkBb ss (bb_mult s) b (bb_sd s),','C59','deviation state lost')
M(N,'bbw_step','(mkBb ss (bb_mult s) b d,','(mkBb ss (bb_mult s) (bb_basis s) d,','C59','basis state lost')
M(N,'cmf_new','a <- sum_new len','a <- sum_new (S len)','C54','second sum longer')
M(N,'cmo_new','1 <? len','1 <=? len','C55 C87','accepts length 1')
M(N,'cmo_new','b <- sum_new len','b <- sum_new (len - 1)','C55','losses over a shorter window')
M(N,'cmo_up','ps_max (Some (fZ 0)) momm','ps_abs momm','C55','falls count as rises')
M(N,'chop_step','(mkChop a su (ch_log s) hs ls,','(mkChop a su (ch_log s) ls hs,','C66','windows swapped')
M(N,'cci_new','dev_new len','dev_new (S len)','C60','deviation window longer')
M(N,'feqb_opt','None, None => true','None, None => false','C61','missing is not equal to missing')
M(N,'times100','x * fZ 100','x','C57 C58 C52','not a percentage')
M(N,'po_step','ostep c (po_lma s) src','ostep c (po_lma s) sma','C58','long average of the short average')
M(N,'rsii_new','rsi_new len','rsi_new (S len)','C22 C106','one bar longer')
M(N,'rsii_step','(mkRsii ss r, v)','(mkRsii ss (ri_rsi s), v)','C22 C111','state lost')
M(N,'rvgi_new','e <- sum_new len','e <- sum_new (S len)','C63','range sum longer')
M(N,'rvoli_new','l <- ema_new ma_len','l <- ema_new len','C64','lower average over the wrong length')
M(N,'rvoli_new','stdev_new len true','stdev_new len false','C64','sample deviation')
M(N,'rvoli_lower','fgtb ch (fZ 0)','fgeb ch (fZ 0)','C64','an unchanged close counts as a rise')
M(N,'srsi_new','k <- sma_new smooth_k ;; d <- sma_new smooth_d','k <- sma_new smooth_d ;; d <- sma_new smooth_k','C62','smoothing lengths swapped')
M(N,'uo_new','d <- sum_new mid ;; e <- sum_new mid','d <- sum_new mid ;; e <- sum_new long','C56','range over the wrong window')
M(N,'uo_step','(0 <? c_index c)','(1 <? c_index c)','C56','second bar has no previous close')
M(N,'uo_step','uo_value (ps_div fast_bp fast_tr) (ps_div mid_bp mid_tr)','uo_value (ps_div mid_bp mid_tr) (ps_div fast_bp fast_tr)','C56','weights swapped')
M(N,'vo_default','EMA 5','EMA 6','C97','wrong default')
M(N,'vo_default','Ok (mkVo s l)','Ok (mkVo l s)','C97','swapped')
M(N,'vo_step','bar_volume c','bar_close c','C58','uses closes')
M(N,'vo_step','vo_value sma lma','vo_value lma sma','C58','swapped')
M(N,'vortex_new','t <- atr_new 1','t <- atr_new len','C67','smoothed range')
M(N,'thr_new','(crosst_new over, crosst_new under)','(crosst_new under, crosst_new over)','C49','thresholds swapped')
M(N,'macd_strategy_new','thr_new (fZ 0) (fZ 0)','thr_new (fZ 0) (fZ 1)','C49 C97','threshold 1')
M(N,'cross_strategy_step',"Ok (s', mode_dir m)","Ok (s, mode_dir m)",'C50','state lost')
M(N,'dmi_strategy_new','(strong, cross_new)','(fZ 20, cross_new)','C50','threshold ignored')
M(N,'aroons_new','false cross_new','true cross_new','C48','starts as if a cross had been seen')
# fixture
M(X,'series_to_trade_dir','map cell_to_trade_dir col','map cell_to_trade_dir (rev col)','C111','reversed')
M(X,'load_ctx','ctx_new d','ctx_new (mkProvider (p_open d) (p_high d) (p_low d) (p_close d) (p_volume d) (p_time d) 1 (p_end d))','C111','first bar skipped')
M(X,'test_trade_dir_target','"_target_"','"close"','C111','wrong column')
# metrics
M(E,'days_before_year','p / 4 - p / 100','p / 4','C73','Julian calendar')
M(E,'year_of_millis','ms / 86400000','ms / 86400','C73','seconds')
M(E,'year_of_millis','y <=? 262143','y <=? 2099','C73','panics from 2100 on')
M(E,'avg_trade','net / fnat closed','net','C39','not divided')
M(E,'avg_trade','if (closed =? 0)%nat then None','if (closed <=? 1)%nat then None','C39','one trade counts as none')
M(E,'avg_winning_trade','gp / fnat n','gp * fnat n','C39','multiplied')
M(E,'avg_losing_trade','gl / fnat n','gl','C39','not divided')
M(E,'avg_win_loss_ratio','w / l','l / w','C39','inverted')
M(E,'sortino_ratio','(mean - rfr) / nsd','mean / nsd','C39 C40','risk-free rate ignored')
M(E,'sortino_ratio','if nsd ==? fZ 0 then fZ 0','if nsd ==? fZ 1 then fZ 0','C39 C40','divides by zero')
for d in 'net_profit gross_profit gross_loss'.split():
    M(E,d+'_percent','x / capital','x / capital * fZ 100','C39','percent instead of fraction')
for d in 'long_net_profit short_net_profit'.split():
    M(E,d+'_percent','x / capital','x','C39 C30','not divided')
M(E,'max_drawdown_percent','dd / net_max','dd','C39 C38','not divided')
M(E,'max_run_up_percent','ru / bar_max','bar_max / ru','C39 C38','inverted')
M(E,'unwrap_or0','None => fZ 0','None => fZ 1','C39','undefined ratio shown as 1')
M(E,'equity_new','mkEquity k k k k k k (fZ 0) (fZ 0) k k','mkEquity k (fZ 0) k k k k (fZ 0) (fZ 0) k k','C37','minimum starts at zero')
M(E,'equity_new','(fZ 0) (fZ 0) k k','(fZ 0) (fZ 0) k (fZ 0)','C37','bar maximum starts at zero')
M(E,'returns_build','(fZ 0) (fZ 0) (fZ 0) initial','(fZ 0) (fZ 0) (fZ 0) (fZ 0)','C72 C39','reference is zero')
M(E,'returns_build','sstdev_build fast','sstdev_build false','C72','fast flag ignored')
M(E,'returns_step','returns_next s v, tt','s, tt','C72','no update')
M(E,'tvdata_default','[k] [z] [k]','[] [z] [k]','C38 C39','history starts empty')
M(E,'tvdata_default','[k] [z] [k]','[k] [z] [z]','C38 C39','equity history starts at zero')
M(E,'tv_default_rfr','lit 2 100','lit 2 10','C97','twenty percent')
# plot
M(L,'f32_ofZ','mode_NE','mode_ZR','C114','truncates')
M(L,'to_f32','(cond_Zopp s (Zpos m))','(Zpos m)','C114','sign lost')
M(L,'to_f32','| B754_zero s => B754_zero s','| B754_zero s => f32_ofZ 1','C114','zero drawn as one')
M(L,'add32','mode_NE','mode_UP','C114','rounds up')
M(L,'enumerate','(S i) t','i t','C114','all at the same position')
M(L,'text_plot','(enumerate 0 items)','(enumerate 1 items)','C114','shifted by one')
M(L,'text_plot','(f32_ofZ 1) (f32_ofZ (Z.of_nat (length items)))','(f32_ofZ 0) (f32_ofZ (Z.of_nat (length items)))','C114','axis starts at 0')
M(L,'text_plot','(fst size) (snd size)','(snd size) (fst size)','C114','width and height swapped')
M(L,'plot_net_equity','tv_net_equity_history','tv_equity_history','C114','wrong series')
M(L,'plot_max_drawdown','tv_max_drawdown_history','tv_net_equity_history','C114','wrong series')
M(L,'plot_equity','tv_equity_history','tv_net_equity_history','C114','wrong series')
# print
M(P,'digit','48 + d','49 + d','C110','digits shifted')
M(P,'show_fixed','B754_nan => "NaN"','B754_nan => "0.00"','C110','NaN printed as a number')
M(P,'show_fixed','minus s ++ "inf"','"inf"','C110','sign of an infinity dropped')
M(P,'show_fixed','minus s ++ decimal k 0','decimal k 0','C110','sign of zero dropped')
M(P,'with_suffix','show_fixed 2 value','show_fixed 3 value','C110','three decimals')
M(P,'f_raw','show_fixed 2 x','show_fixed 1 x','C110','one decimal')
M(P,'newline','10','32','C110','space for a line break')
# program
M('MProgram','example_main',"(fun i => i) c a","(fun i => S i) c a",'C93','wrong tick')
# share
M('MShare','set_nth','_ :: t => v :: t','_ :: t => t','C02','cell deleted')
# stats
M(T,'mean','fsum vs / fnat (length vs)','fsum vs / fnat (length vs - 1)','C41','divides by n-1')
M(T,'var','var_from_mean vs (mean vs)','var_from_mean vs (fZ 0)','C41','around zero')
M(T,'stdev','stdev_from_var (var vs)','var vs','C41','variance')
M(T,'find_max_index','fgtb v m','fgeb v m','C88 C19','ties go to the newest')
M(T,'mean_new','mkMean (fZ 0) 0','mkMean (fZ 0) 1','C41','starts with one value')
M(T,'mean_step','mean_next s v','(fst (mean_next s v), v)','C41','returns the value')
M(T,'wvar_new','mkWvar 0 (fZ 0) (fZ 0)','mkWvar 0 (fZ 0) (fZ 1)','C41','starts with a deviation')
M(T,'wvar_step','wvar_next s v','(s, snd (wvar_next s v))','C41','state lost')
M(T,'var_build','mkVar fast ic_new','mkVar (negb fast) ic_new','C41','flag negated')
M(T,'var_step','var_next s v','(s, snd (var_next s v))','C41 C42','state lost')
M(T,'sstdev_build','var_build fast','var_build true','C41','always fast')
M(T,'sstdev_step','sstdev_next s v','var_next s v','C41','variance')
# strategy
M(S,'dir_eqb','Short, Short => true','Short, Short => false','C34 C32 C28 C36','short differs from short')
M(S,'cmp_opt_dir','cmp_opt dir_eqb','cmp_opt (fun _ _ => true)','C44','any two directions equal')
M(S,'trade_new','mkTrade d false','mkTrade d true','C28 C96 C78 C34','created closed')
M(S,'trade_cur_pnl','dir_eqb (t_dir t) Long','dir_eqb (t_dir t) Short','C30 C85','sign of the profit')
M(S,'trade_cur_pnl','trade_pnl f e price','trade_pnl f price e','C30 C85','entry and price swapped')
M(S,'is_at_entry','(e =? tick)','(e <=? tick)','C34 C96','also after the entry')
M(S,'smetrics_default','mkSMetrics capital','mkSMetrics (fZ 0)','C31 C79','equity starts at zero')
M(S,'strategy_new','[] None None None','[] (Some Long) None None','C79 C29','starts with an order')
M(S,'metrics_set_open','(sm_net m) o (sm_gross_profit m)','(sm_net m + o) o (sm_gross_profit m)','C30','open profit booked')
M(S,'metrics_set_equity','mkSMetrics e (sm_net m) (sm_open m)','mkSMetrics e (sm_net m) (fZ 0)','C30 C31','open profit lost')
# ta
M(A,'sum_new','wc_new len','wc_new (S len)','C10','window one longer')
M(A,'swma_fold','(acc + x * w)','(acc + w)','C15','values ignored')
M(A,'swma_new','wv_new 4','wv_new 3','C15','gap check over 3')
M(A,'wma_new','wv_new len','wv_new 1','C14','gap check over 1')
M(A,'dev_new','sma_new len','sma_new (S len)','C20','mean over a longer window')
M(A,'stdev_new','mkStdev len biased','mkStdev len (negb biased)','C20','flag negated')
M(A,'highest_bars','find_max_index','find_min_index','C19','lowest')
M(A,'lowest','find_min_index','find_max_index','C18','highest')
M(A,'highest_new','wc_new len','wc_new (S len)','C18','window one longer')
M(A,'lowest_new','1 <=? len','0 <=? len','C87','length 0 accepted')
M(A,'highest_bars_new','Ok len','Ok (S len)','C19','window one longer')
M(A,'lowest_bars_new','1 <=? len','2 <=? len','C87','length 1 rejected')
M(A,'lowest_bars_step','ctx_lows','ctx_highs','C19','over the highs')
M(A,'lowest_bars_step','lowest_bars ls len','highest_bars ls len','C19','highest')
M(A,'stoch_new','(wc_new len) (wc_new len)','(wc_new len) (wc_new (S len))','C23','low window longer')
M(A,'atr_step','(mkAtr t r, atr)','(mkAtr t r, tr)','C24','true range, not its average')
M(A,'atr_step','(mkAtr t r, atr)','(mkAtr t (atr_rma s), atr)','C24','state lost')
M(A,'cross_new','(None, None)','(Some (fZ 0), Some (fZ 0))','C25','as if both had been 0 before')
M(A,'crosst_new','threshold None','threshold (Some threshold)','C25','as if at the threshold before')
# testing
M(G,'cmp_opt_i32','cmp_opt Z.eqb','cmp_opt Z.leb','C44','less or equal')
M(G,'cmp_opt_bool','cmp_opt Bool.eqb','cmp_opt (fun _ _ => true)','C44','any two booleans')
M(G,'cmp_opt_f64','cmp_opt compare','cmp_opt (fun a e => true)','C44','any two numbers')
M(G,'cmp_pair_f64','compare (snd a) (snd e)','compare (snd a) (snd a)','C44 C77','second component unchecked')
M(G,'cmp_pair_opt','cmp_opt_f64 (fst a) (fst e)','cmp_opt_f64 (snd a) (snd e)','C77','second component only')
M(G,'series_to_f64','map cell_to_f64 col','map cell_to_f64 (tl col)','C75','first cell dropped')
M(G,'merge_two_columns','(series_to_f64 a) (series_to_f64 b)','(series_to_f64 b) (series_to_f64 a)','C75 C77 C44','columns swapped')
