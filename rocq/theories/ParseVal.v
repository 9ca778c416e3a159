(** * ParseVal: the value computed by the parser. *)
From Coq Require Import ZArith QArith Qabs Qpower List Bool Lia Lqa.
From Verif Require Import Base Var Binary Format Parse Spec SpecText QDec Digits Arith Strip Codec Make Text ParseText.
Import ListNotations.
Open Scope Z_scope.

Definition dd (d : Z) : Prop := 0 <= d <= 9.

Lemma read4 c a b d e : dd a -> dd b -> dd d -> dd e ->
  read_numeric_digit c [a; b; d; e] = Ret (1000 * a + 100 * b + 10 * d + e).
Proof.
  unfold dd. intros. unfold read_numeric_digit. rewrite dassert_ok by reflexivity. cbn [bind read_numeric_digit_loop].
  repeat (rewrite i16_ok by lia; cbn [bind]). f_equal. lia.
Qed.

Lemma read_chunks_spec c k : forall s, Forall dd s -> 4 * Z.of_nat k <= lenz s ->
  exists ds, read_chunks c k s = Ret ds /\ lenz ds = Z.of_nat k /\ Forall dig ds /\ dval ds = tv (firstn (4 * k) s).
Proof.
  induction k as [|k IH]; intros s F L.
  - exists []. repeat split; constructor.
  - cbn [read_chunks]. destruct s as [|a [|b [|d [|e t]]]]; try (unfold lenz in L; cbn [length] in L; lia).
    pose proof (Forall_inv F) as Ha. apply Forall_inv_tail in F. pose proof (Forall_inv F) as Hb. apply Forall_inv_tail in F.
    pose proof (Forall_inv F) as Hd. apply Forall_inv_tail in F. pose proof (Forall_inv F) as He. apply Forall_inv_tail in F.
    rewrite read4 by assumption. cbn [bind].
    destruct (IH t F) as (ds & -> & Lds & Fds & Vds); [unfold lenz in *; cbn [length] in L; lia|]. cbn [bind].
    eexists. split; [reflexivity|]. split; [rewrite lenz_cons; lia|].
    split; [constructor; [unfold dig; unfold dd in *; lia|exact Fds]|].
    replace (4 * S k)%nat with (S (S (S (S (4 * k))))) by lia. cbn [firstn tv].
    rewrite dval_cons, Vds, Lds. rewrite !lenz_cons.
    assert (Lf : lenz (firstn (4 * k) t) = 4 * Z.of_nat k).
    { unfold lenz. rewrite firstn_length_le; [lia|]. unfold lenz in L. cbn [length] in L. lia. }
    rewrite Lf, pB_ten by lia. rewrite !Z.pow_add_r by lia. change (10 ^ 1) with 10. ring.
Qed.

Lemma dd_map l : Forall digit_char l -> Forall dd (map (fun i => i - ch_0) l).
Proof.
  intro F. induction F as [|b l H F IH]; cbn [map]; constructor; auto. unfold digit_char in H. unfold dd, ch_0. lia.
Qed.

Lemma wrap32_id x : -2147483648 <= x <= 2147483647 -> wrap 32 x = x.
Proof.
  intro H. unfold wrap. change (2 ^ (32 - 1)) with 2147483648. change (2 ^ 32) with 4294967296.
  rewrite Z.mod_small; lia.
Qed.

Lemma literal_chars t l : literal_text t l -> Forall digit_char (l_int l) /\ Forall digit_char (l_frac l) /\
  len (l_int l) + len (l_frac l) <= len t /\ l_int l ++ l_frac l <> [].
Proof.
  intro L. destruct L as [sg m ex n ip fp e S M X]. cbn [l_int l_frac]. rewrite !len_app.
  pose proof (len_nonneg sg). pose proof (len_nonneg ex).
  destruct M as [ip N F|ip fp N F1 F2].
  - split; [exact F|]. split; [constructor|]. change (len []) with 0. split; [lia|]. now rewrite app_nil_r.
  - split; [exact F1|]. split; [exact F2|]. rewrite len_app, len_cons. split; [lia|exact N].
Qed.

Lemma skipn_app_exact {A} (a b : list A) n : length a = n -> skipn n (a ++ b) = b.
Proof. intros <-. rewrite skipn_app, skipn_all, Nat.sub_diag. reflexivity. Qed.

Lemma firstn_app_exact {A} (a b : list A) n : length a = n -> firstn n (a ++ b) = a.
Proof. intros <-. rewrite firstn_app, firstn_all, Nat.sub_diag. cbn [firstn]. apply app_nil_r. Qed.

Ltac quot4 :=
  match goal with
  | |- context [Z.quot ?x 4] => rewrite (Z.quot_div_nonneg x 4) by lia
  end.

Lemma parse_str_spec c s l r : parse_decimal s = inl (dec_of l, r) -> exponent_ok l ->
  Forall digit_char (l_int l) -> Forall digit_char (l_frac l) -> l_int l ++ l_frac l <> [] ->
  len (l_int l) + len (l_frac l) < 2 ^ 30 - 8 ->
  exists v, parse_str c s = Ret (inl (v, r)) /\ Forall dig (digits v) /\ sign v = sgn_of (l_neg l) /\
    dscale v = literal_scale l /\ (vval v == literal_value l)%Q /\
    4 * weight v < len (l_int l) + l_exp l <= 4 * (weight v + 1).
Proof.
  intros E X Fi Ff Ne L. unfold parse_str. rewrite E. destruct l as [n ip fp e]. unfold exponent_ok, dec_of, literal_scale, literal_value in *.
  cbn [l_neg l_int l_frac l_exp] in *. change (2 ^ 30) with 1073741824 in L.
  pose proof (len_nonneg ip) as Pi. pose proof (len_nonneg fp) as Pf.
  change len with (@lenz Z) in *. rewrite !wrap32_id by lia.
  set (li := lenz ip) in *. set (lf := lenz fp) in *. cbv zeta.
  rewrite (i32_ok c (li + e)) by lia. cbn [bind]. rewrite (i32_ok c (li + e - 1)) by lia. cbn [bind].
  rewrite (i32_ok c (lf - e)) by lia. cbn [bind]. change DEC_DIGITS with 4.
  set (dw := li + e - 1) in *.
  (* the weight *)
  set (w := (li + e + 3) / 4 - 1).
  assert (Hw : 4 * w < li + e <= 4 * (w + 1)).
  { unfold w. pose proof (Z.div_mod (li + e + 3) 4 ltac:(lia)). pose proof (Z.mod_pos_bound (li + e + 3) 4 ltac:(lia)). lia. }
  assert (EW : (if 0 <=? dw then
           b <- i32 c (dw + 1) ;; b <- i32 c (b + 4) ;; b <- i32 c (b - 1) ;; i32 c (Z.quot b 4 - 1)
         else
           b <- i32 c (- dw) ;; b <- i32 c (b - 1) ;; b <- i32 c (Z.quot b 4 + 1) ;; i32 c (- b)) = Ret w).
  { destruct (Z.leb_spec 0 dw) as [P|P].
    - rewrite i32_ok by lia. cbn [bind]. rewrite i32_ok by lia. cbn [bind]. rewrite i32_ok by lia. cbn [bind].
      quot4. replace (dw + 1 + 4 - 1) with (li + e + 3) by lia. fold w. apply i32_ok. lia.
    - rewrite i32_ok by lia. cbn [bind]. rewrite i32_ok by lia. cbn [bind]. quot4.
      pose proof (Z.div_mod (- dw - 1) 4 ltac:(lia)). pose proof (Z.mod_pos_bound (- dw - 1) 4 ltac:(lia)).
      rewrite i32_ok by lia. cbn [bind]. rewrite i32_ok by lia. f_equal. lia. }
  rewrite EW. cbn [bind]. clear EW.
  rewrite (i32_ok c (w + 1)) by lia. cbn [bind]. rewrite (i32_ok c ((w + 1) * 4)) by lia. cbn [bind].
  rewrite (i32_ok c (dw + 1)) by lia. cbn [bind]. rewrite (i32_ok c ((w + 1) * 4 - (dw + 1))) by lia. cbn [bind].
  set (off := (w + 1) * 4 - (dw + 1)) in *. assert (Ho : 0 <= off <= 3) by (unfold off, dw; lia).
  assert (Pl : 1 <= li + lf).
  { destruct ip as [|x ip']; [destruct fp as [|x fp']; [now elim Ne|]|].
    - unfold lf. rewrite lenz_cons. pose proof (lenz_nonneg fp'). lia.
    - unfold li. rewrite lenz_cons. pose proof (lenz_nonneg ip'). lia. }
  rewrite (i32_ok c (li + lf)) by lia. cbn [bind]. rewrite (i32_ok c (li + lf + off)) by lia. cbn [bind].
  rewrite (i32_ok c (li + lf + off + 4)) by lia. cbn [bind]. rewrite (i32_ok c (li + lf + off + 4 - 1)) by lia. cbn [bind].
  quot4. set (nd := (li + lf + off + 4 - 1) / 4).
  assert (Hnd : 4 * nd - 3 <= li + lf + off <= 4 * nd).
  { unfold nd. pose proof (Z.div_mod (li + lf + off + 4 - 1) 4 ltac:(lia)). pose proof (Z.mod_pos_bound (li + lf + off + 4 - 1) 4 ltac:(lia)). lia. }
  set (mi := map (fun i => i - ch_0) ip). set (mf := map (fun i => i - ch_0) fp).
  assert (Ltot : lenz ([0; 0; 0; 0] ++ mi ++ mf ++ [0; 0; 0; 0]) = 8 + li + lf).
  { rewrite !lenz_app. change (lenz [0; 0; 0; 0]) with 4. unfold mi, mf. rewrite !lenz_map. fold li lf. lia. }
  replace (4 - off <? 0) with false by (symmetry; apply Z.ltb_ge; lia).
  replace (lenz ([0; 0; 0; 0] ++ mi ++ mf ++ [0; 0; 0; 0]) <? 4 - off) with false by (symmetry; apply Z.ltb_ge; lia).
  cbn [orb].
  assert (Sk : skipn (Z.to_nat (4 - off)) ([0; 0; 0; 0] ++ mi ++ mf ++ [0; 0; 0; 0])
     = repeat 0 (Z.to_nat off) ++ mi ++ mf ++ repeat 0 4).
  { change ([0; 0; 0; 0] ++ mi ++ mf ++ [0; 0; 0; 0]) with (repeat 0 4 ++ mi ++ mf ++ repeat 0 4).
    replace (repeat 0 4) with (repeat 0 (Z.to_nat (4 - off)) ++ repeat 0 (Z.to_nat off)) at 1
      by (rewrite <- repeat_app; f_equal; lia).
    rewrite <- app_assoc. apply skipn_app_exact. apply repeat_length. }
  rewrite Sk. clear Sk.
  set (src := repeat 0 (Z.to_nat off) ++ mi ++ mf ++ repeat 0 4).
  assert (Fsrc : Forall dd src).
  { unfold src. repeat (apply Forall_app; split); try (apply dd_map; assumption);
      apply Forall_forall; intros x Hx; apply repeat_spec in Hx; subst x; unfold dd; lia. }
  assert (Lsrc : lenz src = off + li + lf + 4).
  { unfold src. rewrite !lenz_app. unfold mi, mf. rewrite !lenz_map, !lenz_repeat. fold li lf. lia. }
  destruct (read_chunks_spec c (Z.to_nat nd) src Fsrc) as (ds & -> & Lds & Fds & Vds); [rewrite Lsrc; lia|].
  cbn [bind]. eexists. split; [reflexivity|]. cbn [digits sign dscale weight].
  split; [exact Fds|]. split; [reflexivity|]. split; [destruct (Z.ltb_spec (lf - e) 0); lia|]. split; [|exact Hw].
  (* value *)
  set (pad := 4 * nd - (off + li + lf)).
  assert (Fn : firstn (4 * Z.to_nat nd) src = repeat 0 (Z.to_nat off) ++ (mi ++ mf) ++ repeat 0 (Z.to_nat pad)).
  { unfold src. replace (repeat 0 4) with (repeat 0 (Z.to_nat pad) ++ repeat 0 (Z.to_nat (4 - pad)))
      by (rewrite <- repeat_app; f_equal; unfold pad; lia).
    rewrite !app_assoc. apply firstn_app_exact. rewrite !app_length, !repeat_length. unfold mi, mf.
    rewrite !map_length. unfold li, lf, lenz in *. unfold pad. lia. }
  rewrite Fn in Vds. rewrite tv_app, tv_repeat0, tv_app, tv_repeat0 in Vds.
  rewrite lenz_repeat in Vds. unfold mi, mf in Vds. rewrite <- map_app, <- number_of_tv in Vds.
  unfold vval, smag, mag, lsd, ndigits. cbn [digits sign weight]. rewrite Vds, Lds. rewrite !Z2Nat.id by (unfold pad; lia).
  set (N := number_of (ip ++ fp)).
  replace (sgz (sgn_of n) * (0 * 10 ^ lenz (map (fun i => i - ch_0) (ip ++ fp) ++ repeat 0 (Z.to_nat pad)) + (N * 10 ^ pad + 0)))
    with (sgz (sgn_of n) * N * 10 ^ pad) by ring.
  rewrite dec_shift by (unfold pad; lia). unfold dec.
  replace (4 * (w + 1 - nd) + pad) with (e - lf) by (unfold pad, off, dw; lia).
  change (p10 (e - lf)) with (ten ^ (e - lf))%Q. rewrite inject_Z_mult. destruct n; reflexivity.
Qed.
