MUTANTS=[]
def M(f,d,old,new,claims,what,**k):
    MUTANTS.append(dict(id=f'{f}.{d}.w{len(MUTANTS)}',file=f+'.v',**{'def':d},old=old,new=new,claims=claims.split(),what=what,**k))
C='MCommon';K='MCore';N='MContent';A='MTa'
M(A,'wma_fold','d <- usub len i ;;','d <- usub len (S i) ;;','C122','oldest value has no weight')
M(A,'wma_fold','fnat (d * len)','fnat (d * d)','C122','quadratic weights')
M(A,'wma_fold','(norm + weight)','(norm + fZ 1)','C122','divided by the length')
M(A,'wma_step','(rev (wc_all cache))','(wc_all cache)','C122','weights in the wrong order')
M(A,'swma_weights','[fZ 1 / fZ 6; fZ 2 / fZ 6; fZ 2 / fZ 6; fZ 1 / fZ 6]','[fZ 2 / fZ 6; fZ 1 / fZ 6; fZ 1 / fZ 6; fZ 2 / fZ 6]','C122','outer values heavier')
M(A,'swma_fold','acc + x * w','x * w','C122','only the newest value')
M(A,'swma_step','wc_push (sw_cache s) value','wc_push (sw_cache s) (Some (fZ 0))','C122','zeros averaged')
M(A,'stoch','(v - l) / diff','(h - v) / diff','C123','measured from the top')
M(A,'stoch','if diff ==? fZ 0 then Ok prev','if diff ==? fZ 0 then Ok None','C123','not held on an empty range')
M(A,'stoch','h <- highest high','h <- highest low','C123','highest of the lows')
M(A,'roc_step','(l - f) / f','(l - f) / l','C123','divided by the newest value')
M(A,'roc_step','fZ 100 * (l - f) / f','fZ 100 * ((l - f) / f)','C123','other order of operations (control: as accurate)')
M(A,'roc_new','wc_new (len + 1)','wc_new len','C123','one bar too few')
M(A,'change_step','Some (l - f)','Some (f - l)','C123','sign')
M(A,'true_range','(fabs (cl - pc))','(ch - cl)','C123','low against previous close forgotten')
M(A,'true_range','fabs (ch - pc)','(ch - pc)','C123','equivalent? a negative value never wins (control)')
M(A,'true_range','if handle_na then Some (ch - cl) else None','None','C123 C124','no range at the first bar')
M(A,'tr_step','pc <- ctx_close c 1','pc <- ctx_close c 0','C123 C124','previous close taken from the current bar')
M(N,'bop_value','(c - o) / (h - l)','(o - c) / (h - l)','C123','sign')
M(N,'bop_value','if h ==? l then None','if c ==? o then None','C123','wrong guard')
M(N,'don_basis','x / fZ 2','x / fZ 3','C123','basis divided by 3')
M(N,'don_step','(upper, don_basis upper lower, lower)','(lower, don_basis upper lower, upper)','C123','bands swapped')
M(N,'wpr_value','ps_diff src mx','ps_diff src mn','C123','measured from the bottom')
M(N,'wpr_value','times100 (ps_div','(ps_div','C123','not in percent')
M(A,'atr_step','(atr_rma s) tr','(atr_rma s) (option_map (fun x => x / fZ 2) tr)','C124','half the range averaged')
M(A,'atr_new','mkAtr true r','mkAtr false r','C124','first bar skipped')
M(A,'atr_new','r <- rma_new len','r <- ema_new len','C124','exponential instead of running average')
M(A,'rsi_step','Some (- fmin change (fZ 0))','Some (fmin change (fZ 0))','C124','losses negative')
M(A,'rsi_step','let rs := up\' / down\' in','let rs := down\' / up\' in','C124','inverted')
M(A,'rsi_step','fZ 100 / (fZ 1 + rs)','fZ 100 / (fZ 1 - rs)','C124','sign in the formula')
M(A,'rsi_step','Ok (mkRsi u d value up down','Ok (mkRsi u d (rsi_prev s) up down','C124','previous value not updated')
M(A,'rma_new','fZ 1 / fnat len','fZ 2 / fnat len','C124','double weight')
M(N,'macd_step','Some (a - b)','Some (b - a)','C124','sign of the line')
M(N,'macd_step','(mc_sig s) macd','(mc_sig s) sma','C124','signal of the short average')
M(N,'macd_default','EMA 12','EMA 13','C124','length 13')
M(N,'macd_default','EMA 9','SMA 9','C124','simple signal')
