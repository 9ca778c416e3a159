(** * SciText: a scientific text is a literal of the same value, and is determined by the value. *)
From Coq Require Import ZArith QArith Qabs Qpower List Bool Lia Lqa.
From Verif Require Import Base Var Binary Format Parse Convert Num Flt Transc Spec SpecApi SpecText SpecLibm QDec Digits Arith Strip
  Codec Make Text ParseText ParseVal ParseApi FormatText FormatApi PowLoop Sci.
Import ListNotations.
Open Scope Z_scope.

Lemma number_last d fp : d <> 48 -> digit_char d -> Forall digit_char fp -> (forall p b, fp = p ++ [b] -> b <> 48) ->
  number_of (d :: fp) mod 10 <> 0.
Proof.
  intros N D F L. destruct fp as [|x fp] using rev_ind.
  - rewrite number_of_1. unfold digit_char in D. rewrite Z.mod_small by lia. lia.
  - clear IHfp. specialize (L fp x eq_refl). apply Forall_app in F. destruct F as [_ F]. pose proof (Forall_inv F) as Dx. unfold digit_char in Dx.
    change (d :: fp ++ [x]) with ((d :: fp) ++ [x]). rewrite number_of_app, number_of_1. change (len [x]) with 1. change (10 ^ 1) with 10.
    rewrite Z.add_comm, Z.mod_add by lia. rewrite Z.mod_small by lia. lia.
Qed.

(** the parts of a scientific text *)
Lemma sci_parts (d : Z) fp e q : digit_char d -> d <> 48 -> Forall digit_char fp ->
  (Qabs q == inject_Z (number_of (d :: fp)) * ten ^ (e - len fp))%Q ->
  10 ^ len fp <= number_of (d :: fp) < 10 ^ (len fp + 1) /\ (p10 e <= Qabs q)%Q /\ (Qabs q < p10 (e + 1))%Q.
Proof.
  intros D N F V. assert (Fa : Forall digit_char (d :: fp)) by now constructor.
  pose proof (number_of_bound _ Fa) as B. rewrite len_cons in B. pose proof (number_of_lead d fp Fa N) as L. pose proof (len_nonneg fp).
  assert (R : 10 ^ len fp <= number_of (d :: fp) < 10 ^ (len fp + 1)) by (replace (len fp + 1) with (1 + len fp) by lia; lia).
  split; [exact R|]. change (Qabs q == dec (number_of (d :: fp)) (e - len fp))%Q in V. rewrite V.
  rewrite <- (dec_1 e), <- (dec_1 (e + 1)). 
  assert (E1 : (dec 1 e == dec (1 * 10 ^ len fp) (e - len fp))%Q) by (rewrite dec_shift by lia; now replace (e - len fp + len fp) with e by lia).
  assert (E2 : (dec 1 (e + 1) == dec (1 * 10 ^ (len fp + 1)) (e - len fp))%Q) by (rewrite dec_shift by lia; now replace (e - len fp + (len fp + 1)) with (e + 1) by lia).
  rewrite E1, E2. split; [apply dec_le_iff|apply dec_lt_iff]; lia.
Qed.

Lemma mult_low K t s q : K mod 10 <> 0 -> (Qabs q == dec K t)%Q -> mult q s -> - t <= s.
Proof.
  intros KM V M. apply mult_abs in M. destruct M as [k M]. rewrite V, dec_p10 in M.
  destruct (Z_le_gt_dec (- t) s) as [|G]; [assumption|exfalso]. apply KM.
  assert (E : (dec K (t + s) == dec (k * 10 ^ (- (t + s))) (t + s))%Q).
  { rewrite M, dec_shift by lia. rewrite Z.add_opp_diag_r. now rewrite dec_Z. }
  apply dec_eq_iff in E. rewrite E. replace (- (t + s)) with (1 + (- (t + s) - 1)) by lia. rewrite Z.pow_add_r by lia.
  change (10 ^ 1) with 10. replace (k * (10 * 10 ^ (- (t + s) - 1))) with (k * 10 ^ (- (t + s) - 1) * 10) by ring. now rewrite Z.mod_mul by lia.
Qed.

Lemma sci_literal t q mark s : sci_text t q mark -> mark = 101 \/ mark = 69 -> (Qabs q < limit)%Q -> 0 <= s <= 16383 -> mult q s ->
  exists l, literal_text t l /\ in_range l /\ (literal_value l == q)%Q /\ literal_scale l <= s.
Proof.
  intros (n & d & fp & e & ed & -> & D & N & F & L & Fe & Ne & Le & Hn & V) Hm Lim Hs M.
  destruct (sci_parts d fp e q D N F V) as (R & R1 & R2).
  pose proof (number_last d fp N D F L) as KM.
  pose proof (mult_low _ _ _ _ KM V M) as Low. rewrite limit_p10 in Lim.
  assert (P : (p10 e < p10 (4 * 32768))%Q) by (eapply Qle_lt_trans; eauto). apply (proj1 (p10_lt_iff _ _)) in P.
  pose proof (len_nonneg fp) as Lf.
  exists (Literal n [d] fp e). split; [|split; [|split]].
  - set (man := d :: match fp with [] => [] | _ => 46 :: fp end).
    assert (Hman : mantissa_text man [d] fp).
    { unfold man. destruct fp as [|y fp']; [constructor; [discriminate|now constructor]|].
      change (d :: 46 :: y :: fp') with ([d] ++ 46 :: y :: fp'). constructor; [discriminate|now constructor|exact F]. }
    set (ex := mark :: (if e <? 0 then 45 else 43) :: ed).
    assert (Hex : exponent_text ex e).
    { unfold ex. assert (NN : ed <> []) by (intros ->; change (len []) with 0 in Le; destruct Le as [K|[K _]]; lia).
      destruct (Z.ltb_spec e 0) as [E0|E0].
      - pose proof (exponent_some mark [45] true ed Hm sign_minus NN Fe) as X. cbn [app] in X.
        replace (- number_of ed) with e in X by lia. exact X.
      - pose proof (exponent_some mark [43] false ed Hm sign_plus NN Fe) as X. cbn [app] in X.
        replace (number_of ed) with e in X by lia. exact X. }
    replace ((if n then [45] else []) ++ d :: match fp with [] => [] | _ :: _ => 46 :: fp end ++ mark :: (if e <? 0 then 45 else 43) :: ed)
      with ((if n then [45] else []) ++ man ++ ex) by reflexivity.
    apply (literal_intro _ man ex n [d] fp e); [destruct n; constructor|exact Hman|exact Hex].
  - unfold in_range, exponent_ok. cbn [l_exp l_int l_frac]. change (len [d]) with 1. lia.
  - unfold literal_value. cbn [l_neg l_int l_frac l_exp app]. rewrite <- Qmult_assoc, <- V. destruct n.
    + rewrite Qabs_neg; [ring|]. apply Qlt_le_weak. now apply Hn.
    + rewrite Qabs_pos; [ring|]. destruct (Qlt_le_dec q 0) as [K|K]; [apply Hn in K; discriminate|exact K].
  - unfold literal_scale. cbn [l_frac l_exp]. lia.
Qed.

Theorem sci_parse c m x q s lower : log10_sound (f_log10 m) -> stores (be_varlen c) x q s -> ~ (q == 0)%Q ->
  (ten ^ (-1001) <= Qabs q)%Q ->
  exists t y s', num_sci c m x lower = Ret t /\ from_str c t = Ret (inl y) /\ stores (be_varlen c) y q s' /\ s' <= s.
Proof.
  intros LG H NZ L. destruct (sci_spec c m x q s lower LG H NZ) as [A _]. destruct (A L) as (t & E & P).
  destruct (stores_bound _ _ _ _ H) as (B & Hs & M).
  destruct (sci_literal t q _ s P ltac:(destruct lower; auto) B Hs M) as (l & L1 & L2 & L3 & L4).
  destruct (parse_complete c t t l (blank_spaced t) L1 L2) as (y & Ey & Sy).
  exists t, y, (literal_scale l). split; [exact E|]. split; [exact Ey|]. split; [|exact L4]. now apply (stores_ext _ _ _ _ _ L3).
Qed.

(** ** The text is a function of the value *)
Lemma sci_unique t1 t2 q mark : sci_text t1 q mark -> sci_text t2 q mark -> t1 = t2.
Proof.
  intros (n1 & d1 & f1 & e1 & x1 & -> & D1 & N1 & F1 & L1 & Fe1 & Ne1 & Le1 & Hn1 & V1)
    (n2 & d2 & f2 & e2 & x2 & -> & D2 & N2 & F2 & L2 & Fe2 & Ne2 & Le2 & Hn2 & V2).
  assert (En : n1 = n2). { destruct n1, n2; try reflexivity; [symmetry; apply Hn2; now apply Hn1|apply Hn1; now apply Hn2]. }
  destruct (sci_parts d1 f1 e1 q D1 N1 F1 V1) as (R1 & A1 & B1). destruct (sci_parts d2 f2 e2 q D2 N2 F2 V2) as (R2 & A2 & B2).
  assert (Ee : e1 = e2).
  { assert (P : (p10 e1 < p10 (e2 + 1))%Q) by (eapply Qle_lt_trans; eauto). apply (proj1 (p10_lt_iff _ _)) in P.
    assert (P' : (p10 e2 < p10 (e1 + 1))%Q) by (eapply Qle_lt_trans; eauto). apply (proj1 (p10_lt_iff _ _)) in P'. lia. }
  subst e2 n2.
  pose proof (number_last d1 f1 N1 D1 F1 L1) as K1. pose proof (number_last d2 f2 N2 D2 F2 L2) as K2.
  assert (M : forall d f d' f', number_of (d' :: f') mod 10 <> 0 ->
    (Qabs q == inject_Z (number_of (d :: f)) * ten ^ (e1 - len f))%Q ->
    (Qabs q == inject_Z (number_of (d' :: f')) * ten ^ (e1 - len f'))%Q -> len f' <= len f).
  { intros d f d' f' KM V V'. assert (Mq : mult (Qabs q) (len f - e1)).
    { apply (mult_comp (dec (number_of (d :: f)) (e1 - len f))); [symmetry; exact V|]. apply mult_dec. lia. }
    assert (VA : (Qabs (Qabs q) == dec (number_of (d' :: f')) (e1 - len f'))%Q) by (rewrite Qabs_pos by apply Qabs_nonneg; exact V').
    pose proof (mult_low _ _ _ _ KM VA Mq). lia. }
  assert (Ef : len f1 = len f2) by (apply Z.le_antisymm; [apply (M d2 f2 d1 f1 K1 V2 V1)|apply (M d1 f1 d2 f2 K2 V1 V2)]).
  assert (EN : number_of (d1 :: f1) = number_of (d2 :: f2)).
  { apply (dec_eq_iff _ _ (e1 - len f1)). transitivity (Qabs q); [symmetry; exact V1|]. rewrite Ef. exact V2. }
  assert (EL : d1 :: f1 = d2 :: f2).
  { apply number_of_inj; [now constructor|now constructor|rewrite !len_cons; lia|exact EN]. }
  injection EL as -> ->.
  assert (Ex : x1 = x2).
  { apply number_of_inj; auto; [|lia].
    assert (K : forall x y, Forall digit_char x -> Forall digit_char y -> number_of x = number_of y -> len y = 2 -> 2 < len x ->
      (exists b r, x = b :: r /\ b <> 48) -> False).
    { intros x y Fx Fy E Ly Lx (b & r & -> & Nb). pose proof (number_of_lead b r Fx Nb) as Lb. pose proof (number_of_bound y Fy) as By.
      rewrite Ly in By. rewrite len_cons in Lx. assert (10 ^ 2 <= 10 ^ len r) by (apply Z.pow_le_mono_r; lia). lia. }
    assert (G : forall x y, Forall digit_char x -> Forall digit_char y -> number_of x = number_of y ->
      (exists b r, x = b :: r /\ b <> 48) -> len x <= len y).
    { intros x y Fx Fy E (b & r & -> & Nb). pose proof (number_of_lead b r Fx Nb) as Lb. pose proof (number_of_bound y Fy) as By.
      assert (10 ^ len r < 10 ^ len y) as P by lia. rewrite len_cons. pose proof (len_nonneg r). pose proof (len_nonneg y).
      apply Z.pow_lt_mono_r_iff in P; lia. }
    assert (E12 : number_of x1 = number_of x2) by lia.
    destruct Le1 as [Q1|[Q1 X1]]; destruct Le2 as [Q2|[Q2 X2]]; [lia| | |].
    - exfalso. exact (K x2 x1 Fe2 Fe1 (eq_sym E12) Q1 Q2 X2).
    - exfalso. exact (K x1 x2 Fe1 Fe2 E12 Q2 Q1 X1).
    - apply Z.le_antisymm; apply G; auto. }
  now subst.
Qed.

Theorem sci_same c m x y q s s' lower : log10_sound (f_log10 m) ->
  stores (be_varlen c) x q s -> stores (be_varlen c) y q s' -> num_sci c m x lower = num_sci c m y lower.
Proof.
  intros LG Hx Hy. destruct (Qeq_dec q 0) as [Z0|NZ].
  - now rewrite (sci_zero c m x q s lower Hx Z0), (sci_zero c m y q s' lower Hy Z0).
  - destruct (sci_spec c m x q s lower LG Hx NZ) as [A1 B1]. destruct (sci_spec c m y q s' lower LG Hy NZ) as [A2 B2].
    destruct (Qlt_le_dec (Qabs q) (ten ^ (-1001))) as [L|L]; [now rewrite (B1 L), (B2 L)|].
    destruct (A1 L) as (t1 & -> & P1). destruct (A2 L) as (t2 & -> & P2). f_equal. exact (sci_unique _ _ _ _ P1 P2).
Qed.
