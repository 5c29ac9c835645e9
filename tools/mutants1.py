MUTANTS=[]
def M(f,d,old,new,claims,what,**k):
    MUTANTS.append(dict(id=f'{f[:-2]}.{d}.{len(MUTANTS)}',file=f,**{'def':d},old=old,new=new,claims=claims.split(),what=what,**k))
# MCore
M('MCore.v','provider_new','mkProvider open high low','mkProvider open low high','C04','high and low swapped on construction')
M('MCore.v','provider_new','usub (length close) 1','Ok (length close)','C04 C01','end index one past the last bar')
M('MCore.v','provider_from_values','repeat None (length values)','repeat None 0','C04','times vector left empty')
M('MCore.v','ctx_new','(n + 1)','n','C01','bar count misses the last bar')
M('MCore.v','ctx_next','i <=? c_last c','i <? c_last c','C01','loop stops one bar early')
M('MCore.v','ctx_next','(ctx_set_running c true, Some (c_first c))','(ctx_set_index (ctx_set_running c true) (c_first c + 1), Some (c_first c + 1))','C01','first bar skipped')
M('MCore.v','bar_is_up','fgeb cl op','fgtb cl op','C03 C46 C01','is_up strict on doji bars')
M('MCore.v','at_length','l1 <=? c_index c','l1 <? c_index c','C18 C14 C71','warm-up one bar too long')
M('MCore.v','ctx_prev','c_index c <? n','c_index c <=? n','C03','look-back to bar 0 refused')
M('MCore.v','ctx_low','p_low','p_high','C03','low(n) reads highs')
M('MCore.v','ctx_close','p_close','p_open','C03','close(n) reads opens')
M('MCore.v','ctx_volume','p_volume','p_close','C03','volume(n) reads closes')
M('MCore.v','ctx_range','vslice v start (c_index c + 1)','vslice v start (c_index c)','C03','range excludes current bar')
M('MCore.v','ctx_opens','p_open','p_close','C03','opens reads closes')
M('MCore.v','ctx_volumes','p_volume','p_close','C03','volumes reads closes')
M('MCore.v','bar_time','c_index c','(c_index c - 1)','C03 C73 C40','time of the previous bar')
# MShare
M('MShare.v','h_next','Ok (set_nth hp (h_addr h) (mkCells (cl_index k) true), Some (h_first h))','Ok (hp, Some (h_first h))','C02','running flag not set')
M('MShare.v','h_next','if i <=? h_last h then Ok (hp\', Some i)','if i <=? h_last h then Ok (hp, Some i)','C02','index cell not written')
M('MShare.v','h_clone','(h_addr h)','(S (h_addr h))','C02','clone gets its own cell')
# MCommon
M('MCommon.v','timeframe_try_from','| 1 => Some FourHours','| 1 => Some OneHour','C36','encoding collision')
M('MCommon.v','ic_get','usub l1 i','Ok i','C06','get counts from the oldest')
M('MCommon.v','ic_last','(rev s)','s','C06','last returns first')
M('MCommon.v','ic_size','length s','(length s - 1)','C06','size off by one')
M('MCommon.v','wc_is_filled','wc_len w <=? length','wc_len w <? length','C05 C09','is_filled one late')
M('MCommon.v','wc_all','size - wc_len w','size - wc_len w - 1','C05 C18','window one too long')
M('MCommon.v','wc_first','usub (wc_len w) 1','Ok (wc_len w)','C05 C09','first is one older')
M('MCommon.v','wc_first','length (wc_vals w) <? wc_len w','length (wc_vals w) <=? wc_len w','C05 C09','first missing when exactly full')
M('MCommon.v','position_step','Ok (s + 1, s)','Ok (s + 1, s + 1)','C07','position starts at 1')
M('MCommon.v','fixnan_step','Ok (s, s)','Ok (None, s)','C07','memory dropped after a gap')
M('MCommon.v','wv_step','wv_len s <=? d','wv_len s <? d','C08 C09','gap seen one bar too long')
M('MCommon.v','wv_step','mkWV (wv_len s) (c_index c) true, false','mkWV (wv_len s) (wv_last_none s) true, false','C08','last gap index not updated')
M('MCommon.v','ohlc4','o + h + l + c','o + h + l + l','C46','close ignored in ohlc4')
M('MCommon.v','hlc3','fZ 3','fZ 4','C46','wrong divisor')
M('MCommon.v','hl2','h + l','h - l','C46','difference instead of sum')
M('MCommon.v','src_value','SVolume => bar_volume c','SVolume => bar_close c','C46','volume source returns close')
M('MCommon.v','ps_add','| _, _ => None','| Some a, None => Some a | _, _ => None','C45','missing treated as zero')
M('MCommon.v','ps_div','if b ==? fZ 0 then None else Some (a / b)','Some (a / b)','C45','no zero check')
M('MCommon.v','ps_nz','None => fZ 0','None => fZ 1','C45','wrong default')
M('MCommon.v','ps_max','fmax a b','fmin a b','C45','max computes min')
M('MCommon.v','ps_min','fmin a b','fmin a a','C45','second argument ignored')
M('MCommon.v','ps_abs','option_map fabs a','option_map (fun x => x) a','C45','abs dropped')
M('MCommon.v','ps_diff','Some (a - b)','Some (b - a)','C45','operands swapped')
# MStats
M('MStats.v','var_from_mean','fnat (length vs)','fnat (length vs - 1)','C41','sample instead of population variance')
M('MStats.v','find_loop','if cmp x m then','if negb (cmp m x) then','C18 C19','ties go to the newest')
M('MStats.v','find_loop','find_loop cmp t (S i) v (Some i)','find_loop cmp t (S i) best (Some i)','C18','best value not updated')
M('MStats.v','find_min_index','v <? m','fgtb v m','C18','min finds max')
M('MStats.v','find_index','usub (length arr) 1','Ok 0','C18 C19','all-missing window points at the oldest')
M('MStats.v','mean_next','(mn_n s + 1)%nat','(mn_n s + 2)%nat','C41','count off')
M('MStats.v','wvar_next','delta * (v - m)','delta * delta','C41 C42','Welford update with old mean twice')
M('MStats.v','wvar_next','(n <=? 1)%nat','(n <=? 2)%nat','C41 C42','second value reported as zero variance')
M('MStats.v','wvar_next','d / (fnat n - fZ 1)','d / fnat n','C41 C42','population variance')
M('MStats.v','var_next','(mkVar (va_fast s) cache (va_welford s) m,','(mkVar (va_fast s) cache (va_welford s) (va_mean s),','C41','running mean not stored')
M('MStats.v','sstdev_next','stdev_from_var x','x','C41','stdev forgets the root')
M('MStats.v','wstdev_step','stdev_from_var x','x','C41','stdev forgets the root')
M('MStats.v','clip_value','fmin (fmax v mn) mx','fmax (fmin v mx) mn','C43','clip order when bounds cross')
M('MStats.v','scale_value_up','v <=? threshold','v <? threshold','C43','threshold itself not zero')
M('MStats.v','scale_value_up','mx - threshold','mx','C43','range not shifted')
M('MStats.v','scale_value_down','mn - threshold','threshold - mn','C43','sign flipped')
M('MStats.v','scale_value_centered','fZ 1 - abs_diff / distance','abs_diff / distance','C43','distance not inverted')
M('MStats.v','scale_value_min_max','v + offset','v','C76','value not shifted for negative minimum')
M('MStats.v','scale_value_around_mean','fZ 2 * v - m','v - m','C76 C43','factor two dropped')
# MTesting
M('MTesting.v','compare_with_precision','<? precision','<=? precision','C44','tolerance inclusive')
M('MTesting.v','compare_with_precision','fabs (x - target)','(x - target)','C44','sign ignored')
M('MTesting.v','compare','lit 1 100000','lit 1 10000','C44','tolerance ten times larger')
M('MTesting.v','assert_iter','_ <- assertb (length actual =? length expected)%nat ;;','','C44','lengths not compared')
M('MTesting.v','assert_loop','else assert_loop debug cmp ta te','else Ok tt','C44','only the first element compared')
M('MTesting.v','cmp_opt','| _, _ => false','| _, _ => true','C44','missing matches anything')
M('MTesting.v','cmp_triple_opt','&& cmp_opt_f64 a2 e2','','C44','third component ignored')
M('MTesting.v','cmp_quad_opt','&& cmp_opt_f64 a3 e3','&& cmp_opt_f64 a3 a3','C44','fourth component compared with itself')
M('MTesting.v','cmp_opt2_bool','Bool.eqb a2 e2','true','C44','flag ignored')
M('MTesting.v','cell_to_f64','if fisnan x then None else Some x','Some x','C75','NaN kept as a value')
M('MTesting.v','merge_three_columns','(series_to_f64 d)','d','C75','third column not converted')
M('MTesting.v','merge_four_columns','(series_to_f64 a) (series_to_f64 b)','(series_to_f64 b) (series_to_f64 a)','C75','columns swapped')
