(** * FormatApi: Display and normalize. *)
From Coq Require Import ZArith QArith Qabs Qpower List Bool Lia Lqa.
From Verif Require Import Base Var Binary Format Parse Num Spec SpecApi SpecText QDec Digits Arith Strip Codec Make Api1 Api3
  Text ParseText ParseVal ParseApi FormatText.
Import ListNotations.
Open Scope Z_scope.

Lemma steps4 x : 0 <= x -> let K := Z.quot (x + 3) 4 in 0 <= K /\ 4 * K - 3 <= x <= 4 * K.
Proof.
  intros H K. unfold K. rewrite Z.quot_div_nonneg by lia.
  pose proof (Z.div_mod (x + 3) 4 ltac:(lia)). pose proof (Z.mod_pos_bound (x + 3) 4 ltac:(lia)).
  pose proof (Z.div_pos (x + 3) 4 ltac:(lia) ltac:(lia)). lia.
Qed.

Lemma shifted_exact D a b k : 0 <= b -> (dec D (a - b) == inject_Z k)%Q ->
  (if 0 <=? a then D * 10 ^ a else D / 10 ^ (- a)) / 10 ^ b = k.
Proof.
  intros B E. pose proof (pT_pos b B) as Pb. destruct (Z.leb_spec 0 a) as [A|A].
  - assert (H : D * 10 ^ a = k * 10 ^ b).
    { apply inject_Z_inj. rewrite !inject_Z_mult. rewrite <- !p10_Z by lia.
      assert (E2 : (dec D (a - b) * p10 b == inject_Z k * p10 b)%Q) by (rewrite E; reflexivity).
      rewrite dec_p10 in E2. replace (a - b + b) with a in E2 by lia. exact E2. }
    rewrite H. apply Z.div_mul. lia.
  - rewrite Z.div_div by (try lia; apply pT_pos; lia). rewrite <- Z.pow_add_r by lia.
    set (e := - a + b). assert (H : D = k * 10 ^ e).
    { apply inject_Z_inj. rewrite !inject_Z_mult. rewrite <- !p10_Z by (unfold e; lia).
      assert (E2 : (dec D (a - b) * p10 e == inject_Z k * p10 e)%Q) by (rewrite E; reflexivity).
      rewrite dec_p10 in E2. replace (a - b + e) with 0 in E2 by (unfold e; lia). rewrite dec_Z in E2. exact E2. }
    rewrite H. apply Z.div_mul. pose proof (pT_pos e ltac:(unfold e; lia)). lia.
Qed.

Lemma write_wide c v : stripped v -> 0 <= dscale v -> mult (vval v) (dscale v) ->
  exists t, write c v = Ret t /\ plain_text t (vval v) (dscale v).
Proof.
  intros C Sc M. pose proof (st_digits v C) as D. pose proof (st_nan v C) as Nn.
  unfold write. assert (Hn : is_nan v = false) by (unfold is_nan; destruct (sign v); [reflexivity|reflexivity|congruence]).
  rewrite Hn. set (w := weight v) in *. set (ds := digits v) in *. set (dsc := dscale v) in *.
  set (Kz := Z.quot (dsc + 3) 4). pose proof (steps4 dsc ltac:(lia)) as HK. cbv zeta in HK. fold Kz in HK.
  set (fp := write_frac (Z.to_nat Kz) 0 (w + 1) dsc ds).
  destruct (write_frac_spec ds dsc (Z.to_nat Kz) D 0 (w + 1)) as (Ff & Lf & Nf); [lia|lia|]. fold fp in Ff, Lf, Nf.
  rewrite Z2Nat.id in Nf by lia.
  assert (Lf' : len fp = dsc).
  { destruct (Z.eq_dec Kz 0) as [Z0|Z0]; [|rewrite Lf; lia]. unfold fp. rewrite Z0. cbn. lia. }
  assert (Nf' : number_of fp = dval (win ds (w + 1) (Z.to_nat Kz)) / 10 ^ (4 * Kz - dsc)).
  { destruct (Z.eq_dec Kz 0) as [Z0|Z0]; [|rewrite Nf by lia; do 2 f_equal; lia].
    unfold fp. rewrite Z0. cbn [Z.to_nat write_frac win dval]. change (number_of []) with 0. symmetry. apply Z.div_0_l.
    pose proof (pT_pos (4 * 0 - dsc) ltac:(lia)). lia. }
  clear Lf Nf.
  (* the integral part *)
  assert (HI : exists ip, (if w <? 0 then Ret [ch_0] else write_int c (Z.to_nat (w + 1)) 0 ds) = Ret ip /\
     Forall digit_char ip /\ lead_ok ip /\
     number_of (ip ++ fp) = shifted ds (w + 1 + Kz) / 10 ^ (4 * Kz - dsc)).
  { pose proof (pT_pos (4 * Kz - dsc) ltac:(lia)) as Pp.
    destruct (Z.ltb_spec w 0) as [Hw|Hw].
    - exists [48]. split; [reflexivity|]. split; [constructor; [unfold digit_char; lia|constructor]|]. split; [now left|].
      rewrite number_of_app, number_of_1, Nf'. rewrite dval_win by (auto; lia). rewrite Z2Nat.id by lia. lia.
    - replace (Z.to_nat (w + 1)) with (S (Z.to_nat w)) by lia.
      destruct (write_int_spec0 c ds (Z.to_nat w) D) as (ip & E & F & N & L). exists ip. split; [exact E|]. split; [exact F|].
      split.
      + apply L. destruct ds as [|d t] eqn:Eds; [right; pose proof (st_zero v C Eds) as Zr; unfold w; lia|].
        left. unfold digit_or_zero. rewrite lenz_cons. pose proof (lenz_nonneg t).
        replace (0 <? 1 + lenz t) with true by (symmetry; apply Z.ltb_lt; lia). cbn.
        apply (st_first v C d t Eds).
      + rewrite number_of_app, N, Nf', Lf'.
        replace (shifted ds (w + 1 + Kz)) with (dval (win ds 0 (S (Z.to_nat w) + Z.to_nat Kz))).
        2:{ rewrite dval_win by (auto; lia). f_equal. lia. }
        rewrite win_app, dval_app, lenz_win. rewrite Z2Nat.id by lia.
        replace (0 + Z.of_nat (S (Z.to_nat w))) with (w + 1) by lia.
        rewrite pB_ten by lia. replace (4 * Kz) with (dsc + (4 * Kz - dsc)) at 2 by lia. rewrite Z.pow_add_r by lia.
        rewrite Z.mul_assoc, Z.div_add_l by lia. reflexivity. }
  destruct HI as (ip & -> & Fi & Li & Ni). cbn [bind]. eexists. split; [reflexivity|].
  exists (is_negative v), ip, fp. split; [|split; [exact Fi|split; [exact Ff|split; [exact Li|split; [exact Lf'|split]]]]].
  - unfold is_negative. change ch_dash with 45. change ch_dot with 46. f_equal. f_equal.
    destruct (Z.ltb_spec 0 dsc) as [P|P]; destruct (Z.eqb_spec dsc 0) as [Q|Q]; try lia; reflexivity.
  - unfold is_negative. assert (Pm : 0 <= mag v) by (apply (dval_bound ds D)).
    unfold vval, smag. destruct (sign v) eqn:Es; cbn [sgn_eqb sgz]; try congruence.
    + split; [discriminate|]. intro H. exfalso. rewrite <- (dec_0 (4 * lsd v)) in H. apply (proj1 (dec_lt_iff _ _ _)) in H. lia.
    + split; [|reflexivity]. intros _. assert (Ne : digits v <> []).
      { intro E. destruct (st_zero v C E) as [Z1 _]. congruence. }
      pose proof (stripped_pos v C Ne). rewrite <- (dec_0 (4 * lsd v)). apply dec_lt_iff. lia.
  - rewrite (Qabs_vval v D). destruct M as (k & M).
    assert (M' : exists k', (dec (mag v) (4 * lsd v + dsc) == inject_Z k')%Q).
    { exists (Z.abs k). apply Qabs_wd in M. pose proof (Qabs_Qmult (vval v) (p10 (dscale v))) as A1. pose proof (Qabs_vval v D) as A2.
      assert (A3 : (Qabs (p10 (dscale v)) == p10 (dscale v))%Q) by (apply Qabs_pos; apply Qlt_le_weak, p10_pos).
      pose proof (dec_p10 (mag v) (4 * lsd v) (dscale v)) as A4. fold dsc in A1, A3, A4, M.
      rewrite A2, A3 in A1. rewrite A4 in A1. rewrite <- A1, M. reflexivity. }
    destruct M' as (k' & M').
    assert (Hk : number_of (ip ++ fp) = k').
    { rewrite Ni. rewrite <- (shifted_exact (mag v) (4 * (w + 1 + Kz - lenz ds)) (4 * Kz - dsc) k').
      - f_equal. unfold shifted. destruct (Z.leb_spec (lenz ds) (w + 1 + Kz)); destruct (Z.leb_spec 0 (4 * (w + 1 + Kz - lenz ds))); try lia.
        + rewrite pB_ten by lia. reflexivity.
        + rewrite pB_ten by lia. unfold mag. fold ds. do 2 f_equal. lia.
      - lia.
      - replace (4 * (w + 1 + Kz - lenz ds) - (4 * Kz - dsc)) with (4 * lsd v + dsc); [exact M'|].
        unfold lsd, ndigits. fold ds w. lia. }
    rewrite Hk, <- M'. change (ten ^ (- dsc))%Q with (p10 (- dsc)). rewrite dec_p10.
    replace (4 * lsd v + dsc + - dsc) with (4 * lsd v) by lia. reflexivity.
Qed.

Lemma write_spec c v : canon v -> exists t, write c v = Ret t /\ plain_text t (vval v) (dscale v).
Proof. intro C. apply write_wide; [apply C|apply (cn_scale v C)|exact (canon_mult v C)]. Qed.

Lemma plain_ext t q q' s : (q == q')%Q -> plain_text t q s -> plain_text t q' s.
Proof.
  intros E (n & ip & fp & H1 & H2 & H3 & H4 & H5 & H6 & H7). exists n, ip, fp.
  split; [exact H1|]. split; [exact H2|]. split; [exact H3|]. split; [exact H4|]. split; [exact H5|].
  split; [rewrite <- E; exact H6|rewrite <- E; exact H7].
Qed.

Lemma display_spec c x q s : stores (be_varlen c) x q s -> exists t, num_display c x = Ret t /\ plain_text t q s.
Proof.
  intro H. destruct (stores_elim _ _ _ _ H) as (v & C & -> & V & <-). unfold num_display.
  rewrite (as_var_spec c v (canon_storable v C)). cbn [bind]. destruct (write_spec c v C) as (t & E & P).
  exists t. split; [exact E|]. now apply (plain_ext t (vval v)).
Qed.

Lemma display_nan c x : stores_nan (be_varlen c) x -> num_display c x = Ret [78; 97; 78].
Proof. intros ->. unfold num_display. rewrite nan_as_var. reflexivity. Qed.

(** The plain text determines value and scale, and is determined by them. *)
Lemma plain_literal t q s : plain_text t q s -> (Qabs q < limit)%Q -> 0 <= s <= 16383 ->
  exists l, literal_text t l /\ in_range l /\ (literal_value l == q)%Q /\ literal_scale l = s.
Proof.
  intros (n & ip & fp & -> & Fi & Ff & Li & Lf & Hn & Hq) Lim Hs.
  exists (Literal n ip fp 0). 
  assert (Ni : ip <> []) by (destruct Li as [->|(b & r & -> & _)]; discriminate).
  assert (Fa : Forall digit_char (ip ++ fp)) by now apply Forall_app.
  pose proof (number_of_bound _ Fa) as Bn.
  split; [|split; [|split]].
  - set (m := ip ++ (if s =? 0 then [] else 46 :: fp)).
    assert (Hm : mantissa_text m ip fp).
    { unfold m. destruct (Z.eqb_spec s 0) as [Z0|Z0].
      - rewrite app_nil_r. assert (E : fp = []). { destruct fp; [reflexivity|]. rewrite len_cons in Lf. pose proof (len_nonneg fp). lia. }
        subst fp. now constructor.
      - constructor; auto. intro E. apply app_eq_nil in E. tauto. }
    replace ((if n then [45] else []) ++ m) with ((if n then [45] else []) ++ m ++ []) by now rewrite app_nil_r.
    constructor; [destruct n; constructor|exact Hm|constructor].
  - unfold in_range, exponent_ok. cbn [l_exp l_int l_frac]. split; [cbn; lia|]. split; [|lia].
    destruct Li as [->|(b & r & -> & Nb)]; [change (len [48]) with 1; lia|].
    pose proof (number_lead_bound b r fp Fi Ff Nb) as Lb. rewrite Z.add_0_r.
    destruct (Z_le_dec (len (b :: r)) 131072) as [K|K]; [exact K|]. exfalso.
    rewrite Hq in Lim. change (ten ^ (- s))%Q with (p10 (- s)) in Lim.
    assert (H : (limit <= inject_Z (number_of ((b :: r) ++ fp)) * p10 (- s))%Q); [|lra].
    change (limit <= dec (number_of ((b :: r) ++ fp)) (- s))%Q. rewrite limit_p10, <- dec_1.
    replace (4 * 32768) with (- s + (131072 + s)) by lia. rewrite <- dec_shift by lia. apply dec_le_iff.
    apply Z.le_trans with (10 ^ (len (b :: r) - 1 + len fp)); [|exact Lb]. rewrite Z.mul_1_l. apply Z.pow_le_mono_r; lia.
  - unfold literal_value. cbn [l_neg l_int l_frac l_exp]. rewrite Lf. replace (0 - s) with (- s) by lia.
    rewrite <- Qmult_assoc, <- Hq. destruct n.
    + rewrite Qabs_neg; [ring|]. apply Qlt_le_weak. now apply Hn.
    + rewrite Qabs_pos; [ring|]. destruct (Qlt_le_dec q 0) as [L|L]; [apply Hn in L; discriminate|exact L].
  - unfold literal_scale. cbn [l_frac l_exp]. lia.
Qed.

Lemma blank_spaced t : spaced t t.
Proof. exists [], []. split; [now rewrite app_nil_r|]. split; constructor. Qed.

Lemma display_parse c x : valid (be_varlen c) x -> exists t, num_display c x = Ret t /\ from_str c t = Ret (inl x).
Proof.
  intros [N|(q & s & S)].
  - exists [78; 97; 78]. split; [now apply display_nan|]. rewrite N. apply (from_str_nan c _ [78; 97; 78]); [apply blank_spaced|].
    exists 78, 97, 78. split; [reflexivity|]. lia.
  - destruct (display_spec c x q s S) as (t & E & P). exists t. split; [exact E|].
    destruct (stores_bound _ _ _ _ S) as (B & Hs & _).
    destruct (plain_literal t q s P B Hs) as (l & L & R & V & Sl).
    destruct (parse_complete c t t l (blank_spaced t) L R) as (y & Ey & Sy). rewrite Ey. do 2 f_equal.
    rewrite Sl in Sy. apply (stores_unique (be_varlen c) y x q s); [|exact S]. now apply (stores_ext _ _ _ _ _ V).
Qed.

Lemma plain_unique t1 t2 q s : plain_text t1 q s -> plain_text t2 q s -> t1 = t2.
Proof.
  intros (n1 & ip1 & fp1 & -> & Fi1 & Ff1 & Li1 & Lf1 & Hn1 & Hq1) (n2 & ip2 & fp2 & -> & Fi2 & Ff2 & Li2 & Lf2 & Hn2 & Hq2).
  assert (En : n1 = n2). { destruct n1, n2; try reflexivity; [symmetry; apply Hn2; now apply Hn1|apply Hn1; now apply Hn2]. }
  assert (Nm : number_of (ip1 ++ fp1) = number_of (ip2 ++ fp2)).
  { apply (dec_eq_iff _ _ (- s)). unfold dec. change (p10 (- s)) with (ten ^ (- s))%Q. now rewrite <- Hq1, <- Hq2. }
  rewrite !number_of_app, Lf1, Lf2 in Nm.
  pose proof (number_of_bound fp1 Ff1) as B1. pose proof (number_of_bound fp2 Ff2) as B2. rewrite Lf1 in B1. rewrite Lf2 in B2.
  assert (E1 : number_of ip1 = number_of ip2) by nia.
  assert (E2 : number_of fp1 = number_of fp2) by nia.
  assert (Ef : fp1 = fp2) by (apply number_of_inj; auto; lia).
  assert (Ei : ip1 = ip2).
  { apply number_of_inj; auto.
    assert (K : forall a b, Forall digit_char a -> Forall digit_char b -> lead_ok a -> lead_ok b -> number_of a = number_of b -> len a <= len b).
    { intros a b Fa Fb La Lb E. pose proof (number_of_bound b Fb) as Bb. rewrite <- E in Bb.
      destruct (Z.eq_dec (len b) 0) as [Z0|Z0].
      - destruct b as [|y b]; [|rewrite len_cons in Z0; pose proof (len_nonneg b); lia].
        destruct Lb as [Lb|(? & ? & Lb & _)]; discriminate Lb.
      - pose proof (len_nonneg b). pose proof (lead_len a (len b) Fa La ltac:(lia) ltac:(lia)). lia. }
    apply Z.le_antisymm; apply K; auto. }
  now subst.
Qed.
