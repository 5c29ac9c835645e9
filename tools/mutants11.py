MUTANTS=[]
def M(f,d,old,new,claims,what,**k):
    MUTANTS.append(dict(id=f'{f}.{d}.y{len(MUTANTS)}',file=f+'.v',**{'def':d},old=old,new=new,claims=claims.split(),what=what,**k))
C='MCommon';K='MCore';N='MContent';A='MTa';T='MStrategy';R='MMetrics'
M(N,'don_step','bl <- bar_low c','bl <- bar_close c','C129','lower channel from closes')
M(N,'don_step','bh <- bar_high c','bh <- bar_open c','C129','upper channel from opens')
M(N,'wpr_step','bl <- bar_low c','bl <- bar_open c','C129 C130','lowest open')
M(N,'wpr_value','(ps_diff src mx)','(ps_diff mx src)','C130','distance from the top, positive')
M(N,'vo_step','v <- bar_volume c','v <- bar_close c','C129','prices instead of volumes')
M(N,'cmf_step','vo <- bar_volume c','vo <- bar_open c','C129','open instead of volume')
M(N,'bop_step','cl <- bar_close c','cl <- bar_high c','C130','high instead of close')
M(N,'bop_value','(c - o)','(o - c)','C130','sign')
M(N,'bop_value','if h ==? l then None','if h <? l then None','C130','flat bars divided')
M(A,'tr_step','pc <- ctx_close c 1','pc <- ctx_open c 1','C129','previous open')
M(A,'change_step','Some (l - f)','Some (f - l)','C130','sign')
M(A,'change_step','Some (l - f)','Some (fabs (l - f))','C130','size of the change')
M(A,'roc_step','fZ 100 * (l - f) / f','fZ 100 * (l - f) / l','C130','relative to the new value')
M(A,'roc_step','fZ 100 * (l - f) / f','fZ 100 * (f - l) / f','C130','sign')
M(A,'rsi_step','fmax change (fZ 0)','fabs change','C130','size of the change as gain')
M(A,'rsi_step','- fmin change (fZ 0)','fmin change (fZ 0)','C130','losses negative')
M(A,'rsi_step',"up' / down'","down' / up'",'C130','inverted')
M(A,'rsi_step','fZ 100 / (fZ 1 + rs)','fZ 100 / (fZ 1 - rs)','C130','sign in the denominator')
M(A,'stoch_step','wc_all hc) (wc_all lc)','wc_all lc) (wc_all hc)','C130','highs and lows swapped')
M(A,'prank_step','x <=? last','last <=? x','C130','rank from the top')
M(A,'cross_over','fgtb ca cb && (pa <=? pb)','(ca <? cb) && (pa <=? pb)','C130','below instead of above')
M(A,'cross_under','(ca <? cb) && fgeb pa pb','fgtb ca cb && fgeb pa pb','C130','above instead of below')
M(A,'cross_over','fgtb ca cb && (pa <=? pb)','(ca ==? cb) && (pa <=? pb)','C130','touching only')
M(A,'crossover_t_step','cross_over v t p t','cross_over t v t p','C130','arguments swapped')
M(A,'crossunder_t_step','cross_under v t p t','cross_over v t p t','C130','the other crossing')
