MUTANTS=[]
def M(f,d,old,new,claims,what,**k):
    MUTANTS.append(dict(id=f'{f}.{d}.z{len(MUTANTS)}',file=f+'.v',**{'def':d},old=old,new=new,claims=claims.split(),what=what,**k))
C='MCommon';K='MCore';N='MContent';A='MTa'
M(N,'vo_value','times100 (ps_div (ps_diff sma lma) lma)','times100 (ps_diff sma lma)','C132','difference, not relative')
M(N,'vo_value','times100 (ps_div (ps_diff sma lma) lma)','ps_div (ps_diff (times100 sma) lma) (Some (fZ 100))','C132','divided by a constant')
M(N,'vo_step','(lm, lma) <- ostep c (vo_lma s) v','(lm, lma) <- ostep c (vo_lma s) (Some (fZ 1))','C132','long average of ones')
M(N,'cmf_ad_value','/ (h - l) * v','/ (h - l) * (v + fZ 1)','C132','volume plus one')
M(N,'cmf_ad_value','/ (h - l) * v','/ (h - l)','C132','volume left out of the flow')
M(N,'cmf_ad_value','then Some (fZ 0)','then Some (fZ 1)','C132','flat bars count as one share')
M(N,'cmf_step','ps_div ad_sum volume_sum','ad_sum','C132','not divided by the volume')
M(A,'ema_step','(fZ 1 - ema_alpha s) * prev','(fZ 1 - ema_alpha s) * prev + fZ 1','C131 C125','one added at each bar')
M(A,'ema_step','ema_alpha s * v + (fZ 1 - ema_alpha s) * prev','fmax (ema_alpha s * v) ((fZ 1 - ema_alpha s) * prev)','C131','larger part instead of the sum')
M(A,'ema_step','ema_alpha s * v +','ema_alpha s * v * v +','C131 C125','squared')
M(A,'ema_step','(fZ 1 - ema_alpha s) * prev','(fZ 1 - ema_alpha s) * v','C131','forgets the average')
M(A,'sum_step','su_sum s + l','su_sum s + fabs l','C131','absolute values added')
M(A,'sum_step','acc - f','acc - fabs f','C131','absolute values removed')
M(A,'wma_fold','sum + x * weight','sum + x * x * weight','C131','squares weighted')
M(A,'wma_step','sum / norm','(sum + fZ 1) / norm','C131','offset')
M(A,'swma_fold','acc + x * w','acc + x * w + w','C131','offset of one')
M(A,'swma_fold','acc + x * w','fmax acc (x * w)','C131','maximum')
