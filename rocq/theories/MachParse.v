(** * MachParse: the machine-level parser against the parser on lists. *)
From Coq Require Import ZArith QArith Qabs List Bool Lia.
From Verif Require Import Base Var Binary Format Parse Convert Num Data Spec SpecText SpecApi SpecData SpecMach QDec Digits Arith Strip Codec Make Text ParseText ParseVal ParseApi
  DataSim DataBuf DataApi Mach MachSim MachAdd MachMul MachDiv MachApi MachText.
Import ListNotations.
Open Scope Z_scope.

Lemma u8_ok c x : 0 <= x <= 255 -> u8 c x = Ret x.
Proof. intro H. unfold u8, unsigned. change (2 ^ 8) with 256. rewrite (proj2 (Z.leb_le 0 x)), (proj2 (Z.ltb_lt x 256)) by lia. reflexivity. Qed.
Lemma i64_ok c x : - 9000000000000000000 <= x <= 9000000000000000000 -> i64 c x = Ret x.
Proof.
  intro H. unfold i64, arith, fits. change (2 ^ (64 - 1)) with 9223372036854775808.
  rewrite (proj2 (Z.leb_le _ _)), (proj2 (Z.ltb_lt _ _)) by lia. reflexivity.
Qed.

Lemma read_int_m c s : forall r, Forall digit_char s -> 0 <= r -> (r + 1) * 10 ^ lenz s <= 10 ^ 10 ->
  m_read_int c s r = Ret (fold_left (fun a b => a * 10 + (b - ch_0)) s r) /\
  0 <= fold_left (fun a b => a * 10 + (b - ch_0)) s r < 10 ^ 10.
Proof.
  induction s as [|n t IH]; intros r F P B; cbn [m_read_int fold_left].
  - rewrite lenz_nil in B. split; [reflexivity|]. change (10 ^ 0) with 1 in B. lia.
  - rewrite lenz_cons, Z.pow_add_r in B by (pose proof (lenz_nonneg t); lia). change (10 ^ 1) with 10 in B.
    pose proof (Forall_inv F) as D. unfold digit_char in D. change ch_0 with 48 in *.
    assert (P10 : 1 <= 10 ^ lenz t) by (pose proof (Z.pow_pos_nonneg 10 (lenz t) ltac:(lia) (lenz_nonneg t)); lia).
    assert (Br : (r + 1) * 10 <= 10 ^ 10) by nia. change (10 ^ 10) with 10000000000 in Br.
    rewrite i64_ok by lia. cbn [bind]. rewrite u8_ok by lia. cbn [bind]. rewrite i64_ok by lia. cbn [bind].
    apply IH; [exact (Forall_inv_tail F)|lia|]. nia.
Qed.

Lemma extract_exponent_m c s : m_extract_exponent c s = Ret (extract_exponent s).
Proof.
  unfold m_extract_exponent, extract_exponent. destruct (extract_sign s) as [sg s1].
  destruct (eat_digits s1) as [number s2] eqn:Ed. destruct (eat_digits_spec _ _ _ Ed) as (_ & F & _).
  destruct number as [|b t]; [reflexivity|].
  set (n := drop_lead0 (b :: t)). assert (Fn : Forall digit_char n) by (apply Forall_drop_lead0; exact F).
  destruct (Z.ltb_spec 10 (lenz n)) as [L|L]; [reflexivity|].
  destruct (read_int_m c n 0 Fn) as (E & Bd); [lia| |].
  { rewrite Z.mul_1_l. apply Z.pow_le_mono_r; lia. }
  rewrite E. cbn [bind]. change (fold_left (fun a b0 : Z => a * 10 + (b0 - ch_0)) n 0) with (read_int n) in *.
  change (10 ^ 10) with 10000000000 in Bd. set (x := read_int n) in *.
  assert (Es : (match sg with SNeg => i64 c (- x) | _ => Ret x end) = Ret (match sg with SNeg => - x | _ => x end)).
  { destruct sg; try reflexivity. apply i64_ok. lia. }
  rewrite Es. cbn [bind]. change (Z.quot I32_MAX 2) with 1073741823. rewrite i64_ok by lia. cbn [bind].
  set (e := match sg with SNeg => - x | _ => x end) in *. change (- (1073741823)) with (-1073741823).
  destruct (Z.leb_spec 1073741823 e); cbn [orb]; [reflexivity|]. destruct (Z.leb_spec e (-1073741823)); [reflexivity|].
  rewrite as_i32_ok by lia. reflexivity.
Qed.

Lemma parse_decimal_m c s : m_parse_decimal c s = Ret (parse_decimal s).
Proof.
  unfold m_parse_decimal, parse_decimal. destruct (extract_sign s) as [sg s1]. destruct s1 as [|z1 s1']; [reflexivity|].
  destruct (eat_digits (z1 :: s1')) as [ip s2]. destruct s2 as [|b t]; [now destruct ip|].
  destruct (is_e b).
  - destruct ip; [reflexivity|]. rewrite extract_exponent_m. cbn [bind]. destruct (extract_exponent t) as [[e s3]|e]; reflexivity.
  - destruct (b =? ch_dot); [|now destruct ip]. destruct (eat_digits t) as [fp s3]. destruct (_ && _); [reflexivity|].
    destruct s3 as [|b' t']; [reflexivity|]. destruct (is_e b'); [|reflexivity].
    rewrite extract_exponent_m. cbn [bind]. destruct (extract_exponent t') as [[e s4]|e]; reflexivity.
Qed.

Lemma digit_values_m c s : Forall digit_char s -> m_digit_values c s = Ret (map (fun i => i - ch_0) s).
Proof.
  induction s as [|i t IH]; intro F; cbn [m_digit_values map]; [reflexivity|].
  pose proof (Forall_inv F) as D. unfold digit_char in D. change ch_0 with 48 in *. rewrite u8_ok by lia. cbn [bind].
  rewrite IH by exact (Forall_inv_tail F). reflexivity.
Qed.

Lemma store_chunks_m c k : forall s ds pre l, read_chunks c k s = Ret ds -> lenz l = Z.of_nat k ->
  m_store_chunks c k (lenz pre) s (pre ++ l) = Ret (pre ++ ds).
Proof.
  induction k as [|k IH]; intros s ds pre l E L; cbn [read_chunks m_store_chunks] in *.
  - apply Ret_inj in E. subst ds. destruct l; [reflexivity|]. rewrite lenz_cons in L. pose proof (lenz_nonneg l). lia.
  - destruct s as [|x [|y [|z [|t s]]]]; try discriminate.
    apply bind_ret in E. destruct E as (v & Ev & E). apply bind_ret in E. destruct E as (r & Er & E). apply Ret_inj in E. subst ds.
    rewrite Ev. cbn [bind]. destruct l as [|l0 l]; [rewrite lenz_nil in L; lia|]. rewrite lenz_cons in L.
    rewrite set_checked_app by reflexivity. cbn [bind].
    replace (lenz pre + 1) with (lenz (pre ++ [v])) by (rewrite lenz_app; reflexivity).
    replace (pre ++ v :: l) with ((pre ++ [v]) ++ l) by (rewrite <- app_assoc; reflexivity).
    rewrite (IH s r (pre ++ [v]) l Er) by lia. rewrite <- app_assoc. reflexivity.
Qed.

(** The buffer [p] the machine builds shows the digits of [v]; its size is that of the text. *)
Lemma parse_str_m c a s l r : parse_decimal s = inl (dec_of l, r) -> exponent_ok l ->
  Forall digit_char (l_int l) -> Forall digit_char (l_frac l) -> l_int l ++ l_frac l <> [] ->
  len (l_int l) + len (l_frac l) < 2 ^ 30 - 8 ->
  exists v p, parse_str c s = Ret (inl (v, r)) /\ m_parse_str c a s = Ret (inl (p, r)) /\ rep p v /\
    4 * p_nd p <= len (l_int l) + len (l_frac l) + 6 /\
    (match p_cow p with Owned d => lenz (words d) = p_nd p + 5 | Borrowed _ => False end).
Proof.
  intros E X Fi Ff Ne L. destruct (parse_str_spec c s l r E X Fi Ff Ne L) as (v & Ev & _). exists v. pose proof Ev as Ev0.
  unfold m_parse_str. rewrite parse_decimal_m. cbn [bind]. unfold parse_str in Ev. rewrite E in *.
  destruct l as [n ip fp e]. unfold exponent_ok, dec_of in *.
  cbn [l_neg l_int l_frac l_exp] in *. change (2 ^ 30) with 1073741824 in L.
  pose proof (len_nonneg ip) as Pi. pose proof (len_nonneg fp) as Pf.
  change len with (@lenz Z) in *. rewrite !wrap32_id in Ev by lia. rewrite !as_i32_ok by lia.
  set (li := lenz ip) in *. set (lf := lenz fp) in *. cbv zeta in *.
  rewrite (i32_ok c (li + e)) in * by lia. cbn [bind] in *. rewrite (i32_ok c (li + e - 1)) in * by lia. cbn [bind] in *.
  rewrite (i32_ok c (lf - e)) in * by lia. cbn [bind] in *. change DEC_DIGITS with 4 in *.
  set (dw := li + e - 1) in *.
  set (w := (li + e + 3) / 4 - 1).
  assert (Hw : 4 * w < li + e <= 4 * (w + 1)).
  { unfold w. pose proof (Z.div_mod (li + e + 3) 4 ltac:(lia)). pose proof (Z.mod_pos_bound (li + e + 3) 4 ltac:(lia)). lia. }
  assert (EW : (if 0 <=? dw then
           b <- i32 c (dw + 1) ;; b <- i32 c (b + 4) ;; b <- i32 c (b - 1) ;; i32 c (Z.quot b 4 - 1)
         else
           b <- i32 c (- dw) ;; b <- i32 c (b - 1) ;; b <- i32 c (Z.quot b 4 + 1) ;; i32 c (- b)) = Ret w).
  { destruct (Z.leb_spec 0 dw) as [P|P].
    - rewrite i32_ok by lia. cbn [bind]. rewrite i32_ok by lia. cbn [bind]. rewrite i32_ok by lia. cbn [bind].
      quot4. replace (dw + 1 + 4 - 1) with (li + e + 3) by lia. fold w. apply i32_ok. lia.
    - rewrite i32_ok by lia. cbn [bind]. rewrite i32_ok by lia. cbn [bind]. quot4.
      pose proof (Z.div_mod (- dw - 1) 4 ltac:(lia)). pose proof (Z.mod_pos_bound (- dw - 1) 4 ltac:(lia)).
      rewrite i32_ok by lia. cbn [bind]. rewrite i32_ok by lia. f_equal. lia. }
  rewrite EW in *. cbn [bind] in *. clear EW.
  rewrite (i32_ok c (w + 1)) in * by lia. cbn [bind] in *. rewrite (i32_ok c ((w + 1) * 4)) in * by lia. cbn [bind] in *.
  rewrite (i32_ok c (dw + 1)) in * by lia. cbn [bind] in *. rewrite (i32_ok c ((w + 1) * 4 - (dw + 1))) in * by lia. cbn [bind] in *.
  set (of := (w + 1) * 4 - (dw + 1)) in *. assert (Ho : 0 <= of <= 3) by (unfold of, dw; lia).
  assert (Pl : 1 <= li + lf).
  { destruct ip as [|x ip']; [destruct fp as [|x fp']; [now elim Ne|]|].
    - unfold lf. rewrite lenz_cons. pose proof (lenz_nonneg fp'). lia.
    - unfold li. rewrite lenz_cons. pose proof (lenz_nonneg ip'). lia. }
  rewrite (i32_ok c (li + lf)) in * by lia. cbn [bind] in *. rewrite (i32_ok c (li + lf + of)) in * by lia. cbn [bind] in *.
  rewrite (i32_ok c (li + lf + of + 4)) in * by lia. cbn [bind] in *. rewrite (i32_ok c (li + lf + of + 4 - 1)) in * by lia. cbn [bind] in *.
  rewrite Z.quot_div_nonneg in * by lia. set (nd := (li + lf + of + 4 - 1) / 4) in *.
  assert (Hnd : 4 * nd - 3 <= li + lf + of <= 4 * nd).
  { unfold nd. pose proof (Z.div_mod (li + lf + of + 4 - 1) 4 ltac:(lia)). pose proof (Z.mod_pos_bound (li + lf + of + 4 - 1) 4 ltac:(lia)). lia. }
  rewrite usize_ok by lia. cbn [bind]. rewrite usize_ok by lia. cbn [bind].
  rewrite !digit_values_m by assumption. cbn [bind].
  set (mi := map (fun i => i - ch_0) ip) in *. set (mf := map (fun i => i - ch_0) fp) in *.
  destruct (with_ndigits_ok c a nd) as (d & l0 & Ed & Od & Dd & Ll & Lw); [lia|]. rewrite Ed. cbn [bind].
  assert (Sl : m_slice c d nd = Ret l0) by (rewrite <- Ll; apply m_slice_ok; [exact Dd|lia]). rewrite Sl. cbn [bind].
  rewrite dassert_ok by (apply Z.eqb_eq; lia). cbn [bind]. rewrite i32_ok by lia. cbn [bind].
  destruct ((4 - of <? 0) || (lenz ([0; 0; 0; 0] ++ mi ++ mf ++ [0; 0; 0; 0]) <? 4 - of)); [discriminate|]. cbn [bind].
  apply bind_ret in Ev. destruct Ev as (ds & Er & Ev). apply Ret_inj in Ev.
  pose proof (store_chunks_m c (Z.to_nat nd) _ ds [] l0 Er ltac:(lia)) as St. cbn [app] in St. rewrite lenz_nil in St.
  change ([0; 0; 0; 0] ++ mi ++ mf ++ [0; 0; 0; 0]) with (0 :: 0 :: 0 :: 0 :: mi ++ mf ++ [0; 0; 0; 0]).
  rewrite St. cbn [bind].
  assert (Lds : lenz ds = lenz l0).
  { rewrite Ll. clear - Er Hnd Pl Ho. revert Er. generalize (skipn (Z.to_nat (4 - of)) ([0; 0; 0; 0] ++ mi ++ mf ++ [0; 0; 0; 0])).
    assert (G : forall k s ds, read_chunks c k s = Ret ds -> lenz ds = Z.of_nat k).
    { induction k as [|k IH]; intros s ds' H; cbn [read_chunks] in H; [apply Ret_inj in H; now subst ds'|].
      destruct s as [|x [|y [|z [|t s]]]]; try discriminate.
      apply bind_ret in H. destruct H as (v0 & _ & H). apply bind_ret in H. destruct H as (r0 & Er & H). apply Ret_inj in H. subst ds'.
      rewrite lenz_cons, (IH _ _ Er). lia. }
    intros s Er. rewrite (G _ _ _ Er). lia. }
  destruct (write_back_at d l0 ds Dd Lds) as (Dw & Ow & Lw').
  rewrite as_u32_ok by lia. rewrite u32_ok by lia. cbn [bind]. rewrite dassert_ok by (apply Z.leb_le; lia). cbn [bind].
  eexists. split; [exact Ev0|]. split; [reflexivity|]. cbn [p_nd p_cow]. injection Ev as <-. split; [|split; [lia|lia]].
  split; cbn [p_nd p_weight p_dscale p_sign p_cow digits weight dscale sign]; try reflexivity.
  - unfold ndigits. cbn [digits]. lia.
  - split; [lia|exact Dw].
Qed.

Lemma literal_fine v l : Forall dig (digits v) -> sign v <> SNaN -> dscale v = literal_scale l -> (vval v == literal_value l)%Q -> fine v.
Proof.
  intros D N S V. left. split; [exact D|]. split; [exact N|]. rewrite S. split.
  - apply (mult_comp (literal_value l)); [symmetry; exact V|apply literal_mult].
  - unfold literal_scale. lia.
Qed.

Definition parsesb (c : cfg) (m : outcome (pres pbuf)) (r : outcome (pres bytes)) : Prop :=
  match m, r with
  | Ret (inl b), Ret (inl x) => bufrel c b x
  | Ret (inr e), Ret (inr e') => e = e'
  | _, _ => False
  end.
Lemma parse_b c a s : len s < 2 ^ 30 - 8 -> parsesb c (m_from_str c a s) (from_str c s).
Proof.
  intro Len. unfold m_from_str, from_str. destruct (eat_spaces_split s) as (pre & E & B & N). set (s1 := eat_whitespaces s) in *.
  destruct s1 as [|b0 q0] eqn:E1; [reflexivity|]. rewrite <- E1 in *. clear b0 q0 E1.
  destruct (nan_split s1) as [Hn|(t & r & Et & Hn & Hn')].
  - rewrite Hn. cbv iota. destruct (parse_decimal_split s1) as [Hd|(t & l & r & Et & L & Hr & Hd)].
    + unfold m_parse_str, parse_str. rewrite parse_decimal_m, Hd. reflexivity.
    + destruct (exponent_ok_dec l) as [X|X].
      * unfold exponent_ok in X. rewrite (proj2 (Z.ltb_lt _ _) X) in Hd.
        destruct (literal_chars t l L) as (Fi & Ff & Ll & Ne).
        assert (Lt : len (l_int l) + len (l_frac l) < 2 ^ 30 - 8).
        { rewrite E, Et, !len_app in Len. pose proof (len_nonneg pre). pose proof (len_nonneg r). lia. }
        destruct (parse_str_spec c s1 l r Hd X Fi Ff Ne Lt) as (v & Ev & D & Sg & Sc & V & W).
        destruct (parse_str_m c (a 0%nat) s1 l r Hd X Fi Ff Ne Lt) as (v' & p & Ev' & Ep & R & P1 & P2).
        rewrite Ev in Ev'. injection Ev' as <-. rewrite Ev, Ep. cbn [bind].
        destruct (existsb _ r); [reflexivity|].
        assert (F : fine v) by (apply (literal_fine v l); auto; rewrite Sg; apply sgn_of_ok).
        pose proof (len_nonneg (l_int l)) as Pi. pose proof (len_nonneg (l_frac l)) as Pf.
        unfold literal_scale in Sc.
        destruct (Z_le_dec (weight v) 32767) as [W1|W1]; [destruct (Z_le_dec (-32767) (weight v)) as [W2|W2];
          [destruct (Z_le_dec (dscale v) 16383) as [S1|S1]|]|].
        { assert (M : mrep 100000 p v).
          { split; [exact R|]. split.
            - pose proof (rp_nd p v R). pose proof (lenz_nonneg (digits v)). unfold ndigits in *. lia.
            - rewrite (rp_weight p v R). lia.
            - rewrite (rp_dscale p v R). lia.
            - destruct (p_cow p); [contradiction|]. lia. }
          pose proof (make_m c (a 9%nat) 100000 p v ltac:(lia) M F) as S.
          destruct (make_result_spec c v (literal_value l) (literal_scale l)) as (o & Eo & _);
            [exact D|rewrite Sg; apply sgn_of_ok|unfold literal_scale; lia|unfold literal_scale; lia|exact V|apply literal_mult|lia|left; exact W1|].
          rewrite Eo in *. destruct (m_make_result c (a 9%nat) p) as [ob| | |]; try contradiction.
          cbn [sim] in S. cbn [bind]. destruct ob, o; try contradiction; [|reflexivity]. cbn. exact S. }
        all: unfold m_make_result, make_result, m_nan, is_nan; rewrite (rp_sign p v R), (rp_weight p v R), (rp_dscale p v R);
          (replace (sgn_eqb (sign v) SNaN) with false by (rewrite Sg; destruct (l_neg l); reflexivity));
          rewrite !dassert_ok by (try reflexivity; apply Z.leb_le; lia); cbn [bind];
          change NUMERIC_WEIGHT_MAX with 32767; change NUMERIC_WEIGHT_MIN with (-32767); change NUMERIC_DSCALE_MAX with 16383;
          replace ((32767 <? weight v) || (weight v <? -32767) || (16383 <? dscale v)) with true
            by (symmetry; rewrite !orb_true_iff, !Z.ltb_lt; lia); reflexivity.
      * unfold m_parse_str, parse_str. rewrite parse_decimal_m, Hd.
        replace (Z.abs (l_exp l) <? 1073741823) with false; [reflexivity|].
        symmetry. apply Z.ltb_ge. unfold exponent_ok in X. lia.
  - rewrite Hn'. cbv iota. destruct (existsb _ r); [reflexivity|]. pose proof (nan_m c (a 0%nat)) as S. rewrite nan_buf_spec in *.
    destruct (m_nan_buf c (a 0%nat)); try contradiction. cbn [sim] in S. cbn. exact S.
Qed.
Lemma parse_mach c a s : len s < 2 ^ 30 - 8 -> parses c (m_from_str c a s) (from_str c s).
Proof.
  intro L. pose proof (parse_b c a s L) as P. destruct (m_from_str c a s) as [[b|e]| | |], (from_str c s) as [[x|e']| | |]; cbn in *; try contradiction; try assumption.
  exact (bufrel_bytes _ _ _ P).
Qed.
