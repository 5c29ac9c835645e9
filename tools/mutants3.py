MUTANTS=[]
def M(d,old,new,claims,what,**k):
    f='MContent.v'
    MUTANTS.append(dict(id=f'{f[:-2]}.{d}.{len(MUTANTS)}',file=f,**{'def':d},old=old,new=new,claims=claims.split(),what=what,**k))
M('aroon_value','(fZ z + fnat len)','(fnat len - fZ z)','C47','sign of the offset')
M('aroon_step','option_map (aroon_value (ar_len s)) high, option_map (aroon_value (ar_len s)) low','option_map (aroon_value (ar_len s)) low, option_map (aroon_value (ar_len s)) high','C47','up and down swapped')
M('ao_step','Some (a - p)','Some a','C58','oscillator instead of its change')
M('ao_default','ma_new SMA 34','ma_new SMA 35','C58','wrong default length')
M('ao_step','Ok (mkAo ss ls sm lm ao, osc)','Ok (mkAo ss ls sm lm osc, osc)','C58','stores the change as previous')
M('bop_value','(c - o) / (h - l)','(o - c) / (h - l)','C53','sign')
M('bop_value','if h ==? l then None else','','C53','flat bar divides by zero')
M('bb_new','stdev_new len true','stdev_new len false','C59','sample deviation')
M('bbpb_value','(src - lower) / diff','(upper - src) / diff','C59','inverted')
M('bbw_value','(upper - lower) / basis','(upper - lower)','C59','not relative')
M('bb_default','(fZ 2)','(fZ 3)','C59','wrong multiplier')
M('cmf_ad_value','fZ 2 * c - l - h','c - l - h','C54','factor dropped')
M('cmf_step','ps_div ad_sum volume_sum','ps_div volume_sum ad_sum','C54','inverted')
M('cmf_ad_value','then Some (fZ 0)','then None','C54','flat bar is a gap')
M('cks_first','h - x * a','h + x * a','C65','stop on the wrong side')
M('cks_step','highest_step c (ck_ss s) fh','highest_step c (ck_ss s) fl','C65','short stop from the low series')
M('cks_new','sh <- highest_new q','sh <- highest_new p','C65','wrong smoothing length')
M('cmo_down','ps_abs (ps_min (Some (fZ 0)) momm)','ps_min (Some (fZ 0)) momm','C55','losses negative')
M('cmo_value','(a - b) / (a + b)','(a - b) / a','C55','wrong denominator')
M('cmo_step','Ok (mkCmo ss src s1 s2','Ok (mkCmo ss (cmo_prev s) s1 s2','C55','previous frozen')
M('chop_new','a <- atr_new 1','a <- atr_new len','C66','smoothed ranges')
M('chop_value','flog10 (a / diff) / loglen','flog10 (a / diff)','C66','not normalised')
M('cci_value','lit 15 1000','lit 15 100','C60','wrong constant')
M('cci_step','dev_step c (cci_dev s) src','dev_step c (cci_dev s) ma','C60','deviation of the mean')
M('compute_up_down','if ud <=? fZ 0 then Some (fZ 1) else Some (ud + fZ 1)','Some (ud + fZ 1)','C61','streak does not reset')
M('compute_up_down','fgeb ud (fZ 0)','fgtb ud (fZ 0)','C61','streak restart at 0 missed')
M('crsi_value','(a + b + p) / fZ 3','(a + b + p)','C61','not averaged')
M('crsi_step','rsi_step c (cr_ud_rsi s) ud','rsi_step c (cr_ud_rsi s) src','C61','streak RSI fed with price')
M('crsi_new','roc_new 1','roc_new 2','C61','two-bar change ranked')
M('cop_step','Some (a + b)','Some (a - b)','C68','difference of rates')
M('cop_default','14 11 10','11 14 10','C68','lengths swapped (symmetric sum)')
M('dmi_plus_dm','fgtb u d && fgtb u (fZ 0)','fgtb u (fZ 0)','C57','both movements counted')
M('dmi_minus_dm','fgtb d u','fgeb d u','C57','equal moves counted')
M('dmi_dx','fabs (p - m)','(p - m)','C57','sign kept')
M('dmi_step','ps_diff prev_low low','ps_diff low prev_low','C57','down movement inverted')
M('dmi_step','fixnan_step c (dm_minus_fix s) (times100 (ps_div minus_rma tr_rma))','fixnan_step c (dm_minus_fix s) (ps_div minus_rma tr_rma)','C57','not a percentage')
M('dmi_new','mkDmi false','mkDmi true','C57','first bar true range used')
M('don_basis','x / fZ 2','x','C51','sum instead of mid')
M('don_step','(upper, don_basis upper lower, lower)','(lower, don_basis upper lower, upper)','C51','channels swapped')
M('don_step','lowest_step c (dn_l s) bl','lowest_step c (dn_l s) bh','C51','lower channel from highs')
M('macd_default','EMA 9','EMA 10','C58','signal length')
M('macd_step','ostep c (mc_sig s) macd','ostep c (mc_sig s) sma','C58','signal of the short average')
M('po_value','(s - l) / l','(s - l) / s','C58','wrong base')
M('po_default','ma_new SMA 21','ma_new SMA 20','C58','wrong default')
M('rsii_default','14','15','C22 C62 C26','wrong default')
M('rvgi_step','ps_diff cl op','ps_diff op cl','C63','sign')
M('rvgi_step','swma_step c (rg_sig s) rvi','swma_step c (rg_sig s) co_swma','C63','signal of the numerator')
M('rvoli_upper','ch <=? fZ 0','ch <? fZ 0','C64','unchanged price counted up')
M('rvoli_value','u / (u + l)','l / (u + l)','C64','inverted')
M('rvoli_step','Ok (mkRvoli ss d u l src','Ok (mkRvoli ss d u l (rv_prev s)','C64','previous frozen')
M('srsi_step','stoch_step c (sr_stoch s) (rsi, rsi, rsi)','stoch_step c (sr_stoch s) (src, rsi, rsi)','C62','price against RSI range')
M('srsi_step','sma_step c (sr_d s) kv','sma_step c (sr_d s) st','C62','d skips k smoothing')
M('uo_bp','ps_min low prev_close','low','C56','gap ignored')
M('uo_tr','ps_max high prev_close','high','C56','gap ignored')
M('uo_value','fZ 4 * f + fZ 2 * m + s','fZ 4 * s + fZ 2 * m + f','C56','weights reversed')
M('uo_default','7 14 28','7 14 30','C56','wrong default')
M('vo_value','ps_div (ps_diff sma lma) lma','ps_div (ps_diff sma lma) sma','C58','wrong base')
M('vortex_step','ps_abs (ps_diff high prev_low)','ps_abs (ps_diff high prev_high)','C67','wrong previous price')
M('vortex_step','(ps_div vmp str, ps_div vmm str)','(ps_div vmm str, ps_div vmp str)','C67','swapped')
M('wpr_value','ps_diff src mx','ps_diff src mn','C52','distance from the low')
M('wpr_step','highest_step c (wp_h s) bh','highest_step c (wp_h s) src','C52','high of closes')
M('thr_step','if over : bool then Some Long else if under : bool then Some Short else None','if over : bool then Some Short else if under : bool then Some Long else None','C49','directions swapped')
M('osc_strategy_new','thr_new oversold overbought','thr_new overbought oversold','C49','thresholds swapped')
M('wpr_strategy_new','thr_new overbought oversold','thr_new oversold overbought','C49','thresholds un-swapped')
M('rsi_strategy_default','(fZ 30)','(fZ 20)','C49','default threshold')
M('cci_strategy_default','(fZ 200)','(fZ 100)','C49','default threshold')
M('srsi_strategy_step','(fst kd)','(snd kd)','C49','looks at d')
M('mode_dir','Some Under => Some Short','Some Under => None','C50','never short')
M('dmi_strategy_step','fgtb a (fst s)','fgeb a (fst s)','C50','threshold inclusive')
M('dmi_strategy_step','(plus, minus) ;;','(minus, plus) ;;','C50','lines swapped')
M('dmi_strategy_default','fZ 25','fZ 20','C50','default threshold')
M('aroon_strength','fZ 1 - (fZ 100 - a) / fZ 50','(fZ 100 - a) / fZ 50','C48','strength inverted')
M('aroon_strength','(b <? fZ 50)','(b <=? fZ 50)','C48','boundary')
M('aroons_step','if is_some cross then true else as_cross_mode s','is_some cross','C48','armed only on the crossing bar')
M('aroons_step','(true, false, false)','(true, false, true)','C48','stays armed after a signal')
M('aroons_step','(snd x, fst x)','(fst x, fst x)','C48','crosses itself')
