MUTANTS=[]
def M(f,d,old,new,claims,what,**k):
    MUTANTS.append(dict(id=f'{f}.{d}.y{len(MUTANTS)}',file=f+'.v',**{'def':d},old=old,new=new,claims=claims.split(),what=what,**k))
S='MShare';S2='MShare2';T='MTa';C='MContent'
M(S2,'h_call','c <- h_view hp (fst k)','c <- h_view (set_nth hp (h_addr (fst k)) (mkCells 0 true)) (fst k)','C101 C102','components do not see the moved index')
M(S2,'h_calls',"'(t', ys) <- h_calls hp t ;;\n        Ok (k' :: t', y :: ys)","'(t', ys) <- h_calls hp t ;;\n        Ok (t', y :: ys)",'C101 C102','components dropped after a bar')
M(S2,'h_calls',"Ok (k' :: t', y :: ys)","Ok (k :: t', y :: ys)",'C101 C102','state update lost')
M(S2,'h_loop',"h_calls hp' ks with","h_calls hp ks with",'C101','components called before the move')
M(S2,'h_drive',"h_calls hp' ks ;;","h_calls hp ks ;;",'C102','index set after the calls')
M(S,'h_clone','(h_addr h)','(S (h_addr h))','C101 C02','clone has its own cells')
M(S,'h_next','set_nth hp (h_addr h) (mkCells i (cl_running k))','set_nth hp 0 (mkCells i (cl_running k))','C101','moves the first context of the heap')
M(S,'h_new','(length hp)','0','C101','new context shares the first cells')
M(T,'cross_over','(pa <=? pb)','(pa <? pb)','C103 C22','touching line does not count')
M(T,'true_range','fabs (cl - pc)','(pc - cl)','C103 C107','no absolute value at the low')
M(T,'true_range','fabs (ch - pc)','(ch - pc)','C103','no absolute value at the high')
M(T,'rsi_step','(- fmin change (fZ 0))','(- fmin change (fZ 1))','C103 C107','losses floored at 1')
M(T,'stdev_step','let mean := - mean in','','C107 C15','mean not negated')
M(T,'dev_step','fabs (match v with Some x => x | None => mean end - mean)','(match v with Some x => x | None => mean end - mean)','C107 C14','signed deviation')
M(T,'wma_fold','fnat (d * len)','fnat (i * len)','C105','weights reversed')
M(T,'wma_fold','(norm + weight)','(norm + weight + weight)','C105','norm doubled')
M(T,'swma_weights','fZ 2 / fZ 6; fZ 2 / fZ 6','fZ 2 / fZ 6; fZ (-2) / fZ 6','C105 C107','negative weight')
M(T,'ema_new','(fnat len + fZ 1)','(fnat len)','C104','alpha 2/len')
M(T,'ema_new','fZ 2 /','fZ 3 /','C104 C107','alpha 3/(len+1), above 1 for length 1')
M(T,'rma_new','fZ 1 / fnat len','fZ 1 / (fnat len + fZ 1)','C104','alpha 1/(len+1)')
M(T,'ema_step','(fZ 1 - ema_alpha s) * prev','prev','C104 C107 C105','previous value not discounted')
M(T,'highest_step','at_length c (wi_len s)','at_length c (S (wi_len s))','C106','one bar late')
M(T,'change_new','(len + 1)','len','C106','one bar early')
M(T,'swma_step','at_length c (sw_len s)','at_length c 3','C106','one bar early')
M(T,'prank_step','(wi_len s + 1)','(wi_len s)','C106','one bar early')
M(T,'stoch','fZ 100 * (v - l) / diff','fZ 100 * (h - v) / diff','C103','distance from the high')
M(T,'stoch_step','at_length c (st_len s)','at_length c (S (st_len s))','C106','one bar late')
M(C,'wpr_value','(ps_diff src mx)','(ps_diff mx src)','C107 C103','sign')
M(C,'wpr_value','(ps_diff src mx)','(ps_diff src mn)','C107','distance from the low')
M(C,'vortex_step','(ps_abs (ps_diff low prev_high))','(ps_abs (ps_diff low prev_low))','C103','wrong previous price')
M(C,'vortex_step','(ps_div vmp str, ps_div vmm str)','(ps_div vmp str, ps_div vmm vmp)','C103','wrong divisor')
M(C,'dmi_step','(ps_div plus_rma tr_rma)','(ps_div plus_rma minus_rma)','C107 C103','wrong divisor')
M(C,'dmi_step','let down := ps_diff prev_low low in','let down := ps_diff low prev_low in','C103','down move sign')
M(C,'dmi_step','times100 adx','adx','C106 C55','not in percent')
M(C,'aroon_step','at_length c (ar_len s)','at_length c 1','C106','early')
M(C,'macd_step','Some (a - b)','Some (b - a)','C58','swapped')
M(C,'macd_step','ostep c (mc_sig s) macd','ostep c (mc_sig s) sv','C106 C58','signal of the source')
M(C,'cop_step','(fun','(fun','C106','noop') if False else None
M(C,'cop_new','wma_new len','wma_new (S len)','C106','average one longer')
M(C,'don_new','lowest_new len','lowest_new (S len)','C106','lower channel one longer')
M(C,'wpr_new','highest_new len','highest_new (S len)','C106 C107','longer high window')
M(C,'crsi_step','roc_step c (cr_roc s) src','roc_step c (cr_roc s) ud','C106','rate of change of the streak')
