(** * LogFin: logarithms to a base at the API (num.rs 796-838). *)
From Coq Require Import Reals Qreals Lra Lia ZArith QArith Qabs List Bool.
From Verif Require Import Base Var Binary Parse Num Flt Transc Spec SpecApi SpecLn QDec Digits Arith Strip AddSub Signed Codec Make Api1 PowApi Sqrt DivFast LogApi ExpApi
  LnOps LnSqrt LnQR LnRed LnSeries LnApi LnSig LogAcc.
Import ListNotations.
Open Scope R_scope.

Lemma log_var_pos c m fuel v b : stripped v -> stripped b -> (0 < vval v)%Q -> (0 < vval b)%Q ->
  log_var c m fuel v b = log_common c m fuel v b.
Proof.
  intros S T P Q. unfold log_var. rewrite (nan_ok c v (st_nan _ S)), (nan_ok c b (st_nan _ T)). cbn [bind].
  assert (Z : forall w, stripped w -> (0 < vval w)%Q -> cmp_common c w ZERO = Ret 1%Z).
  { intros w W Pw. destruct (cmp_zero c w W) as (z & -> & Hz). destruct Hz as [[_ K]|[[-> _]|[_ K]]]; [|reflexivity|].
    - exfalso. rewrite K in Pw. now apply Qlt_irrefl in Pw.
    - exfalso. apply (Qlt_irrefl 0). eapply Qlt_trans; [exact Pw|exact K]. }
  rewrite (Z v S P), (Z b T Q). cbn [bind]. reflexivity.
Qed.

(** What the theorem says of the outcome [o] for the value [q], scales [s] and the base [p] *)
Definition log_ok (c : cfg) (o : outcome bytes) (q p : Q) (s : Z) : Prop :=
  o = Diverge \/ (o = Panic WArith /\ dbg c = true) \/
  (exists y r s', o = Ret y /\ stores (be_varlen c) y r s' /\ (Z.min 1000 s <= s' <= 1000)%Z /\
     Rabs (Q2R r - ln (Q2R q) / ln (Q2R p)) <= 505 / 1000 * powerRZ 10 (- s') /\
     (s' = 1000%Z \/ (q == 1)%Q \/ 39000000000000 <= Rabs (ln (Q2R q) / ln (Q2R p)) * powerRZ 10 s')).

Lemma log_finish c m fuel v b : logs_near (f_log10 m) (f_ln m) -> canon v -> canon b -> (0 < vval v)%Q -> (0 < vval b)%Q ->
  ((vval v == 1)%Q \/ (p10 (-990) <= Qabs (vval v - 1))%Q) -> (p10 (-1980) <= Qabs (vval b - 1))%Q ->
  log_ok c (r <- log_var c m fuel v b ;; make_result_no_overflow c r) (vval v) (vval b) (Z.max (dscale v) (dscale b)).
Proof.
  intros N C C' P P' H H'. rewrite (log_var_pos c m fuel v b (cn_st _ C) (cn_st _ C') P P').
  assert (Hv : rv v = 1 \/ e10 (-990) <= Rabs (rv v - 1)).
  { destruct H as [H|H]; [left; rewrite (rv_eq _ _ H); apply RMicromega.Q2R_1|right].
    apply Qle_Rle in H. rewrite Q2R_p10, Q2R_abs, Q2R_minus, RMicromega.Q2R_1 in H. exact H. }
  assert (Hb : e10 (-1980) <= Rabs (rv b - 1)).
  { apply Qle_Rle in H'. rewrite Q2R_p10, Q2R_abs, Q2R_minus, RMicromega.Q2R_1 in H'. exact H'. }
  destruct (log_common_spec c m fuel v b N (canon_arg v C P) (cn_st _ C) (canon_arg b C' P') (cn_st _ C') Hv Hb)
    as [->|[[-> D]|(r & rs & -> & T & Dr & M & Rs & W & Er & Sg)]]; cbn [bind]; [now left|right; left; now split|].
  pose proof (cn_scale v C). pose proof (cn_scale b C').
  destruct (make_no_overflow_spec c r) as (y & Ey & Sy).
  { apply T. } { apply T. } { lia. } { rewrite Dr. exact M. } { lia. }
  right. right. exists y, (vval r), rs. split; [exact Ey|]. split; [rewrite <- Dr; exact Sy|]. split; [lia|]. split; [exact Er|].
  destruct Sg as [Sg|[Sg|Sg]]; [now left| |now right; right]. right. left. apply eqR_Qeq. rewrite RMicromega.Q2R_1. exact Sg.
Qed.

Lemma log_ok_ext c o q q' p p' s : (q == q')%Q -> (p == p')%Q -> log_ok c o q p s -> log_ok c o q' p' s.
Proof.
  intros E F [H|[H|(y & r & s' & K)]]; [now left|right; now left|right; right]. exists y, r, s'.
  rewrite <- (Qeq_eqR _ _ E), <- (Qeq_eqR _ _ F). setoid_rewrite <- E. exact K.
Qed.

Theorem log_api c m fuel x q s b p sb : logs_near (f_log10 m) (f_ln m) -> stores (be_varlen c) x q s -> stores (be_varlen c) b p sb ->
  (0 < q)%Q -> (0 < p)%Q -> ((q == 1)%Q \/ (ten ^ (-990) <= Qabs (q - 1))%Q) -> (ten ^ (-1980) <= Qabs (p - 1))%Q ->
  log_ok c (num_log c m fuel x b) q p (Z.max s sb).
Proof.
  intros N H H' Q P Hq Hp. destruct (stores_elim _ _ _ _ H) as (v & C & -> & V & E). destruct (stores_elim _ _ _ _ H') as (w & C' & -> & V' & E').
  pose proof (canon_storable v C) as St. pose proof (canon_storable w C') as St'.
  unfold num_log. rewrite (num_is_nan_spec c v St), (num_is_nan_spec c w St'). cbn [bind].
  rewrite (as_var_spec c v St). cbn [bind]. rewrite (as_var_spec c w St'). cbn [bind].
  apply (log_ok_ext _ _ _ _ _ _ _ V V'). rewrite <- E, <- E'.
  apply log_finish; auto; try (now rewrite ?V, ?V').
Qed.

Lemma rv_small d : rv (Var 0 0 SPos [d]) = IZR d.
Proof.
  unfold rv. assert (E : (vval (Var 0 0 SPos [d]) == inject_Z d)%Q); [|rewrite (Qeq_eqR _ _ E); apply Q2R_Z].
  unfold vval, smag, mag, lsd, ndigits. cbn [digits sign weight]. rewrite dval_cons. change (dval []) with 0%Z. change (lenz [d]) with 1%Z. change (lenz (@nil Z)) with 0%Z.
  change (4 * (0 + 1 - 1))%Z with 0%Z. change (sgz SPos) with 1%Z. unfold dec. rewrite p10_0. rewrite Qmult_1_r. apply inject_Z_injective. change (10000 ^ 0)%Z with 1%Z. lia.
Qed.

Theorem log_const_api c m fuel x q s : logs_near (f_log10 m) (f_ln m) -> stores (be_varlen c) x q s ->
  (0 < q)%Q -> ((q == 1)%Q \/ (ten ^ (-990) <= Qabs (q - 1))%Q) ->
  log_ok c (num_log2 c m fuel x) q 2 s /\ log_ok c (num_log10 c m fuel x) q 10 s.
Proof.
  intros N H Q Hq. destruct (stores_elim _ _ _ _ H) as (v & C & -> & V & E).
  pose proof (canon_storable v C) as St. pose proof (cn_scale v C) as Sc.
  assert (K : forall d, (2 <= d <= 9999)%Z -> log_ok c (r <- log_var c m fuel v (Var 0 0 SPos [d]) ;; make_result_no_overflow c r) q (inject_Z d) s).
  { intros d Hd. assert (Cd : canon (Var 0 0 SPos [d])) by (apply canon_small; [discriminate|lia]).
    assert (Vd : (vval (Var 0 0 SPos [d]) == inject_Z d)%Q) by (apply eqR_Qeq; rewrite Q2R_Z; apply rv_small).
    apply (log_ok_ext _ _ _ _ _ _ _ V Vd). replace s with (Z.max (dscale v) (dscale (Var 0 0 SPos [d]))) by (cbn [dscale]; lia).
    apply log_finish; auto; try (now rewrite V).
    - rewrite Vd. change 0%Q with (inject_Z 0). rewrite <- Zlt_Qlt. lia.
    - rewrite Vd. assert (E1 : (inject_Z d - 1 == inject_Z (d - 1))%Q) by (change 1%Q with (inject_Z 1); unfold Qminus; rewrite <- inject_Z_opp, <- inject_Z_plus; reflexivity).
      rewrite E1. change (Qabs (inject_Z (d - 1))) with (inject_Z (Z.abs (d - 1))).
      apply (Qle_trans _ (p10 0)); [apply p10_le; lia|]. rewrite p10_0. change 1%Q with (inject_Z 1). rewrite <- Zle_Qle. lia. }
  unfold num_log2, num_log10. rewrite (num_is_nan_spec c v St). cbn [bind]. rewrite (as_var_spec c v St). cbn [bind].
  split; [apply (K 2%Z)|apply (K 10%Z)]; lia.
Qed.

(** ** The base rounded to zero *)
Lemma div_fast_zero c v w s : sign v <> SNaN -> sign w <> SNaN -> digits w = [] -> div_fast_common c v w s true = Ret None.
Proof.
  intros N1 N2 D. unfold div_fast_common. rewrite (nan_ok c v N1), (nan_ok c w N2). cbn [bind].
  unfold ndigits. rewrite D. reflexivity.
Qed.

Theorem log_gives_up c m fuel x q s b p sb : logs_near (f_log10 m) (f_ln m) -> stores (be_varlen c) x q s -> stores (be_varlen c) b p sb ->
  ~ (q == 1)%Q -> (Qabs (q - 1) <= ten ^ (-1020))%Q -> ((11 # 10) <= p <= (15 # 10))%Q ->
  let o := num_log c m fuel x b in
  o = Diverge \/ (o = Panic WArith /\ dbg c = true) \/ o = Panic (WMsg MDivZero).
Proof.
  intros N H H' Q1 Hq Hp. cbv zeta. destruct (stores_elim _ _ _ _ H) as (v & C & -> & V & E). destruct (stores_elim _ _ _ _ H') as (w & C' & -> & V' & E').
  pose proof (canon_storable v C) as St. pose proof (canon_storable w C') as St'.
  unfold num_log. rewrite (num_is_nan_spec c v St), (num_is_nan_spec c w St'). cbn [bind].
  rewrite (as_var_spec c v St). cbn [bind]. rewrite (as_var_spec c w St'). cbn [bind].
  pose proof (cn_st _ C) as Sv. pose proof (cn_st _ C') as Sw.
  apply Qle_Rle in Hq. change (ten ^ (-1020))%Q with (p10 (-1020)) in Hq. rewrite Q2R_p10, Q2R_abs, Q2R_minus, RMicromega.Q2R_1, <- (Qeq_eqR _ _ V) in Hq. fold (rv v) in Hq.
  destruct Hp as [Lp Up]. apply Qle_Rle in Lp, Up. rewrite <- (Qeq_eqR _ _ V') in Lp, Up. fold (rv w) in Lp, Up. unfold Q2R in Lp, Up. cbn [Qnum Qden] in Lp, Up.
  assert (R1 : rv v <> 1).
  { intro K. apply Q1. rewrite <- V. apply eqR_Qeq. rewrite RMicromega.Q2R_1. exact K. }
  assert (Sm : e10 (-1020) <= / 10) by (rewrite <- e10_m1; apply e10_le; lia).
  pose proof (Rabs_between _ _ Hq) as Bv. assert (Pv : 0 < rv v) by lra. assert (Pw : 0 < rv w) by lra.
  assert (Qv : (0 < vval v)%Q) by (apply Rlt_Qlt; rewrite RMicromega.Q2R_0; exact Pv).
  assert (Qw : (0 < vval w)%Q) by (apply Rlt_Qlt; rewrite RMicromega.Q2R_0; exact Pw).
  pose proof (canon_arg v C Qv) as Av. pose proof (canon_arg w C' Qw) as Aw.
  rewrite (log_var_pos c m fuel v w Sv Sw Qv Qw).
  destruct (estimate_all c m v N Av Sv) as (n & En & Bn & Un & _ & Ln). specialize (Ln R1).
  destruct (estimate_all c m w N Aw Sw) as (d & Ed & Bd & Ud & _ & Ld). specialize (Ld ltac:(lra)).
  assert (Lw : 90909 / 1000000 <= ln (rv w) <= 44 / 100).
  { split; [now apply ln_eleven|].
    assert (G : ln (rv w) <= ln (111 / 100 * (111 / 100) * (111 / 100 * (111 / 100)))) by (apply ln_mono; lra).
    rewrite !ln_mult in G by lra. pose proof (ln_up (111 / 100) ltac:(lra)). lra. }
  rewrite (Rabs_pos_eq (ln (rv w))) in Ud, Ld by lra.
  assert (Hd : (-2 <= d <= 0)%Z).
  { split.
    - assert (-3 < d)%Z; [|lia]. apply e10_lt_inv. pose proof (e10_opp 3) as O. change (- (3))%Z with (-3)%Z in O.
      replace (e10 3) with 1000 in O by (unfold powerRZ; replace (Pos.to_nat 3) with 3%nat by reflexivity; cbn [pow]; ring). lra.
    - assert (d < 1)%Z; [|lia]. apply e10_lt_inv. rewrite e10_1. lra. }
  assert (Hn : (n <= -1019)%Z).
  { assert (n < -1018)%Z; [|lia]. apply e10_lt_inv. pose proof (ln_one_hi (rv v) ltac:(lra)) as K.
    change (-1018)%Z with (2 + -1020)%Z. rewrite e10_add, e10_2. pose proof (e10_pos (-1020)). lra. }
  unfold log_common. rewrite (nan_ok c v (st_nan _ Sv)), (nan_ok c w (st_nan _ Sw)). cbn [bind].
  assert (Db : (if dbg c then s <- cmp_common c v ZERO ;; dassert c (0 <? s)%Z else Ret tt) = Ret tt).
  { destruct (cmp_zero c v Sv) as (z & -> & Hz).
    assert (z = 1%Z) as ->. { destruct Hz as [[_ K]|[[G _]|[_ K]]]; [exfalso; rewrite K in Qv; now apply Qlt_irrefl in Qv|exact G|].
      exfalso. apply (Qlt_irrefl 0). eapply Qlt_trans; [exact Qv|exact K]. }
    cbn [bind]. destruct (dbg c); [apply dassert_ok; reflexivity|reflexivity]. }
  rewrite Db. cbn [bind]. rewrite Ed, En. cbn [bind]. change NUMERIC_MIN_SIG_DIGITS with 16%Z.
  rewrite (i32_fits c (n - d)) by lia. cbn [bind]. rewrite (i32_fits c (16 - (n - d))) by lia. cbn [bind].
  pose proof (cn_scale v C) as Dv. pose proof (cn_scale w C') as Dw.
  assert (ER : clamp_scale (Z.max (Z.max (16 - (n - d)) (dscale w)) (dscale v)) = 1000%Z).
  { unfold clamp_scale. change NUMERIC_MIN_DISPLAY_SCALE with 0%Z. change NUMERIC_MAX_DISPLAY_SCALE with 1000%Z. lia. }
  rewrite ER. change NUMERIC_MIN_DISPLAY_SCALE with 0%Z.
  rewrite (i32_fits c (1000 + (n - d))) by lia. cbn [bind]. rewrite (i32_fits c (1000 + (n - d) - d)) by lia. cbn [bind].
  rewrite (i32_fits c (1000 + (n - d) - d + 8)) by lia. cbn [bind]. rewrite (i32_fits c (1000 + (n - d) - n)) by lia. cbn [bind].
  rewrite (i32_fits c (1000 + (n - d) - n + 8)) by lia. cbn [bind].
  replace (Z.max (1000 + (n - d) - d + 8) 0) with 0%Z by lia. replace (Z.max (1000 + (n - d) - n + 8) 0) with (1008 - d)%Z by lia.
  destruct (ln_common_spec c fuel w 0 Aw ltac:(lia)) as [->|[[-> D]|(rb & -> & Tb & Sb1 & Mb & Eb)]]; cbn [bind];
    [now left|right; left; now split|].
  destruct (ln_common_spec c fuel v (1008 - d) Av ltac:(lia)) as [->|[[-> D]|(rn & -> & Tn & _)]]; cbn [bind];
    [now left|right; left; now split|].
  assert (Zb : digits rb = []).
  { apply semi_zero; [now apply stripped_semi|]. destruct Mb as (k & K). rewrite p10_0, Qmult_1_r in K.
    assert (Rb : rv rb = IZR k) by (rewrite (rv_eq _ _ K); apply Q2R_Z).
    unfold ln_error in Eb. change (powerRZ 10 (- 0)) with 1 in Eb. change (IZR 0) with 0 in Eb. rewrite (Rabs_pos_eq (ln (rv w))) in Eb by lra.
    rewrite Rb in Eb. apply Rabs_between in Eb.
    assert (k < 1)%Z by (apply lt_IZR; lra). assert (-1 < k)%Z by (apply lt_IZR; lra). assert (k = 0)%Z by lia. subst k. exact K. }
  right. right. rewrite (div_fast_zero c rn rb 1000 (st_nan _ Tn) (st_nan _ Tb) Zb). reflexivity.
Qed.

(** ** However close to one the number is *)
Definition log_any (c : cfg) (o : outcome bytes) (s : Z) : Prop :=
  o = Diverge \/ (o = Panic WArith /\ dbg c = true) \/ o = Panic (WMsg MDivZero) \/
  (exists y r s', o = Ret y /\ stores (be_varlen c) y r s' /\ (Z.min 1000 s <= s' <= 1000)%Z).

Lemma log_finish_any c m fuel v b : logs_near (f_log10 m) (f_ln m) -> canon v -> canon b -> (0 < vval v)%Q -> (0 < vval b)%Q ->
  (p10 (-1980) <= Qabs (vval b - 1))%Q ->
  log_any c (r <- log_var c m fuel v b ;; make_result_no_overflow c r) (Z.max (dscale v) (dscale b)).
Proof.
  intros N C C' P P' H'. rewrite (log_var_pos c m fuel v b (cn_st _ C) (cn_st _ C') P P').
  assert (Hb : e10 (-1980) <= Rabs (rv b - 1)).
  { apply Qle_Rle in H'. rewrite Q2R_p10, Q2R_abs, Q2R_minus, RMicromega.Q2R_1 in H'. exact H'. }
  destruct (log_common_shape c m fuel v b N (canon_arg v C P) (cn_st _ C) (canon_arg b C' P') (cn_st _ C') Hb)
    as [->|[[-> D]|[->|(r & rs & -> & T & Dr & M & Rs & W)]]]; cbn [bind]; [now left|right; left; now split|right; right; now left|].
  pose proof (cn_scale v C). pose proof (cn_scale b C').
  destruct (make_no_overflow_spec c r) as (y & Ey & Sy).
  { apply T. } { apply T. } { lia. } { rewrite Dr. exact M. } { lia. }
  right. right. right. exists y, (vval r), rs. split; [exact Ey|]. split; [rewrite <- Dr; exact Sy|]. lia.
Qed.

Theorem log_any_api c m fuel x q s b p sb : logs_near (f_log10 m) (f_ln m) -> stores (be_varlen c) x q s -> stores (be_varlen c) b p sb ->
  (0 < q)%Q -> (0 < p)%Q -> (ten ^ (-1980) <= Qabs (p - 1))%Q -> log_any c (num_log c m fuel x b) (Z.max s sb).
Proof.
  intros N H H' Q P Hp. destruct (stores_elim _ _ _ _ H) as (v & C & -> & V & E). destruct (stores_elim _ _ _ _ H') as (w & C' & -> & V' & E').
  pose proof (canon_storable v C) as St. pose proof (canon_storable w C') as St'.
  unfold num_log. rewrite (num_is_nan_spec c v St), (num_is_nan_spec c w St'). cbn [bind].
  rewrite (as_var_spec c v St). cbn [bind]. rewrite (as_var_spec c w St'). cbn [bind].
  rewrite <- E, <- E'. apply log_finish_any; auto; try (now rewrite ?V, ?V').
Qed.

Theorem log_const_any_api c m fuel x q s : logs_near (f_log10 m) (f_ln m) -> stores (be_varlen c) x q s -> (0 < q)%Q ->
  log_any c (num_log2 c m fuel x) s /\ log_any c (num_log10 c m fuel x) s.
Proof.
  intros N H Q. destruct (stores_elim _ _ _ _ H) as (v & C & -> & V & E).
  pose proof (canon_storable v C) as St. pose proof (cn_scale v C) as Sc.
  assert (K : forall d, (2 <= d <= 9999)%Z -> log_any c (r <- log_var c m fuel v (Var 0 0 SPos [d]) ;; make_result_no_overflow c r) s).
  { intros d Hd. assert (Cd : canon (Var 0 0 SPos [d])) by (apply canon_small; [discriminate|lia]).
    assert (Vd : (vval (Var 0 0 SPos [d]) == inject_Z d)%Q) by (apply eqR_Qeq; rewrite Q2R_Z; apply rv_small).
    replace s with (Z.max (dscale v) (dscale (Var 0 0 SPos [d]))) by (cbn [dscale]; lia).
    apply log_finish_any; auto; try (now rewrite V).
    - rewrite Vd. change 0%Q with (inject_Z 0). rewrite <- Zlt_Qlt. lia.
    - rewrite Vd. assert (E1 : (inject_Z d - 1 == inject_Z (d - 1))%Q) by (change 1%Q with (inject_Z 1); unfold Qminus; rewrite <- inject_Z_opp, <- inject_Z_plus; reflexivity).
      rewrite E1. change (Qabs (inject_Z (d - 1))) with (inject_Z (Z.abs (d - 1))).
      apply (Qle_trans _ (p10 0)); [apply p10_le; lia|]. rewrite p10_0. change 1%Q with (inject_Z 1). rewrite <- Zle_Qle. lia. }
  unfold num_log2, num_log10. rewrite (num_is_nan_spec c v St). cbn [bind]. rewrite (as_var_spec c v St). cbn [bind].
  split; [apply (K 2%Z)|apply (K 10%Z)]; lia.
Qed.
