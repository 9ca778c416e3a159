(** * FloatText: from a float to a numeric through "%.*g". *)
From Coq Require Import ZArith QArith Qabs Qpower Lia Lqa Bool List.
From Verif Require Import Base Var Binary Format Parse Convert Spec SpecApi SpecText SpecLibm QDec Digits Make Text ParseApi FormatText FormatApi Normalize SciText SpecDouble Flt Float FloatGrid.
Import ListNotations.
Open Scope Z_scope.

Lemma expressible_mult r s : expressible r s <-> mult r s.
Proof. reflexivity. Qed.

(** Every decimal in range has a plain text. *)
Definition int_text (k s : Z) : list Z :=
  (if k <? 0 then [45] else []) ++ dec_digits (Z.to_nat (Z.abs k + 1)) (Z.abs k) [] ++ (101 :: [45] ++ dec_digits 5 s []).

Lemma literal_int_text k s : 0 <= s <= 16383 -> (Qabs (dec k (- s)) < limit)%Q ->
  exists l, literal_text (int_text k s) l /\ in_range l /\ (literal_value l == dec k (- s))%Q /\ literal_scale l = s.
Proof.
  intros Hs B. unfold int_text. set (n := Z.abs k) in *.
  assert (W1 : n < 10 ^ (n + 1)) by (pose proof (Z.pow_gt_lin_r 10 (n + 1) ltac:(lia)); lia).
  destruct (dec_digits_spec (Z.to_nat (n + 1)) n [] ltac:(lia) ltac:(rewrite Z2Nat.id by lia; lia)) as (ip & -> & Fi & Ni & Li).
  destruct (dec_digits_spec 5 s [] ltac:(lia) ltac:(change (10 ^ Z.of_nat 5) with 100000; lia)) as (ed & -> & Fe & Ne & Le).
  rewrite !app_nil_r.
  assert (Nip : ip <> []) by (destruct Li as [->|(? & ? & -> & _)]; discriminate).
  assert (Ned : ed <> []) by (destruct Le as [->|(? & ? & -> & _)]; discriminate).
  exists (Literal (k <? 0) ip [] (- s)).
  split; [|split; [|split]].
  - assert (X : exponent_text (101 :: [45] ++ ed) (- s)) by (rewrite <- Ne; exact (exponent_some 101 [45] true ed (or_introl eq_refl) sign_minus Ned Fe)).
    apply (literal_intro _ ip _ _ ip [] (- s)); [destruct (k <? 0); constructor|now constructor|exact X].
  - unfold in_range, exponent_ok. cbn [l_exp l_int l_frac]. change (len []) with 0.
    split; [lia|]. split; [|lia].
    rewrite Qabs_dec in B. fold n in B. rewrite limit_p10 in B.
    assert (L : len ip <= 131072 + s).
    { apply (lead_len ip (131072 + s) Fi Li ltac:(lia)). rewrite Ni.
      apply (proj1 (dec_lt_iff n (10 ^ (131072 + s)) (- s))). eapply Qlt_le_trans; [exact B|].
      rewrite <- (Z.mul_1_l (10 ^ (131072 + s))). rewrite dec_shift by lia. rewrite dec_1. apply p10_le. lia. }
    lia.
  - unfold literal_value. cbn [l_neg l_int l_frac l_exp]. rewrite app_nil_r, Ni. change (len []) with 0. rewrite Z.sub_0_r.
    unfold dec. change (ten ^ (- s))%Q with (p10 (- s)). unfold n. destruct (Z.ltb_spec k 0).
    + rewrite Z.abs_neq by lia. rewrite inject_Z_opp. ring.
    + rewrite Z.abs_eq by lia. ring.
  - unfold literal_scale. cbn [l_frac l_exp]. change (len []) with 0. lia.
Qed.

Lemma plain_exists r s : 0 <= s <= 16383 -> (Qabs r < limit)%Q -> mult r s -> exists t, plain_text t r s.
Proof.
  intros Hs B [k M]. assert (E : (r == dec k (- s))%Q).
  { unfold dec. rewrite <- M. rewrite <- Qmult_assoc, p10_opp. ring. }
  rewrite E in B. destruct (literal_int_text k s Hs B) as (l & L1 & L2 & L3 & L4). set (t := int_text k s) in *.
  destruct (parse_complete (Cfg false false) t t l (blank_spaced t) L1 L2) as (x & _ & S).
  destruct (display_spec (Cfg false false) x _ _ S) as (t' & _ & P). rewrite L4 in P. exists t'.
  apply (plain_ext t' (literal_value l)); [|exact P]. now rewrite L3, E.
Qed.

(** the shortest text has the least scale *)
Lemma shortest_least t r s0 : shortest_text t r -> (Qabs r < limit)%Q -> 0 <= s0 <= 16383 -> mult r s0 ->
  exists s, plain_text t r s /\ 0 <= s <= s0 /\ least_scale r s.
Proof.
  intros (s & P & M) B H0 M0. exists s. split; [exact P|].
  assert (Sc : 0 <= s) by (destruct P as (? & ? & ? & _ & _ & _ & _ & <- & _); apply len_nonneg).
  assert (Lt : forall s', 0 <= s' -> mult r s' -> s <= s').
  { intros s' Hs' Ms'. destruct (plain_exists r s0 H0 B M0) as (t0 & P0). pose proof (M t0 s0 P0).
    destruct (Z_le_gt_dec s' 16383) as [L|L]; [|lia]. destruct (plain_exists r s' ltac:(lia) B Ms') as (t' & P'). exact (M t' s' P'). }
  split; [split; [exact Sc|now apply Lt]|]. split; [exact Sc|]. split.
  - destruct P as (n & ip & fp & _ & _ & _ & _ & _ & Hn & Hq). apply expressible_mult.
    assert (Ma : mult (Qabs r) s).
    { apply (mult_comp (dec (number_of (ip ++ fp)) (- s))); [symmetry; exact Hq|]. apply mult_dec. lia. }
    destruct (Qlt_le_dec r 0) as [L|L].
    + apply (mult_comp (- Qabs r)); [rewrite Qabs_neg by lra; ring|now apply mult_opp].
    + apply (mult_comp (Qabs r)); [now apply Qabs_pos|exact Ma].
  - exact Lt.
Qed.

(** ** Range of finite doubles *)
Lemma p10_p2_hi : (p2 1024 < p10 309)%Q.
Proof. rewrite p2_Z, p10_Z by lia. apply inj_lt. reflexivity. Qed.
Lemma inv_lt (a b a' b' : Q) : (0 < a -> 0 < b' -> a < b -> a * a' == 1 -> b * b' == 1 -> b' < a')%Q.
Proof.
  intros Pa Pb H A B. apply (Qmult_lt_r _ _ a Pa). setoid_replace (a' * a)%Q with 1%Q by (rewrite Qmult_comm; exact A).
  apply (Qlt_le_trans _ (b' * b)); [now apply Qmult_lt_l|]. rewrite Qmult_comm, B. apply Qle_refl.
Qed.
Lemma p10_p2_lo : (p10 (-324) < p2 (-1074))%Q.
Proof.
  apply (inv_lt (p2 1074) (p10 324)); [apply p2_pos|apply p10_pos| |exact (p2_opp 1074)|exact (p10_opp 324)].
  rewrite p2_Z, p10_Z by lia. apply inj_lt. reflexivity.
Qed.

Lemma grid_low F q : on_grid F q -> ~ (q == 0)%Q -> (p2 (f_emin F) <= Qabs q)%Q.
Proof.
  intros (m & e & _ & He & E) N. change (2 ^ e)%Q with (p2 e) in E. rewrite E, Qabs_p2.
  assert (Hm : m <> 0) by (intros ->; apply N; rewrite E; ring).
  apply Qle_trans with (1 * p2 e)%Q; [rewrite Qmult_1_l; now apply p2_le|]. apply Qmult_le_r; [apply p2_pos|].
  change 1%Q with (inject_Z 1). apply inj_le. lia.
Qed.

Lemma finite_range f e : finite_in binary64 f -> (ten ^ e <= Qabs f)%Q -> (Qabs f < ten ^ (e + 1))%Q -> -324 <= e <= 308.
Proof.
  intros [G H] L U. cbn [f_emax binary64] in H. change (2 ^ 1024)%Q with (p2 1024) in H. change (ten ^ e)%Q with (p10 e) in L. change (ten ^ (e + 1))%Q with (p10 (e + 1)) in U.
  assert (N : ~ (f == 0)%Q). { intro E. rewrite E in L. change (Qabs 0) with 0%Q in L. pose proof (p10_pos e) as P. clear H U. lra. }
  pose proof (grid_low binary64 f G N) as W. cbn [f_emin binary64] in W.
  pose proof (Qle_lt_trans _ _ _ L (Qlt_trans _ _ _ H p10_p2_hi)) as A.
  pose proof (Qlt_trans _ _ _ p10_p2_lo (Qle_lt_trans _ _ _ W U)) as B.
  apply (proj1 (p10_lt_iff _ _)) in A. apply (proj1 (p10_lt_iff _ _)) in B. lia.
Qed.

(** ** The rounded value *)
Lemma significant_bounds p f r e k : 1 <= p -> (ten ^ e <= Qabs f)%Q -> (Qabs f < ten ^ (e + 1))%Q ->
  (Qabs (inject_Z k - f * ten ^ (p - 1 - e)) <= 1 # 2)%Q -> (r == inject_Z k * ten ^ (e - p + 1))%Q ->
  10 ^ (p - 1) <= Z.abs k <= 10 ^ p /\ (p10 e <= Qabs r)%Q /\ (Qabs r <= p10 (e + 1))%Q /\ mult r (p - 1 - e).
Proof.
  intros P L U K R. change (ten ^ e)%Q with (p10 e) in L. change (ten ^ (e + 1))%Q with (p10 (e + 1)) in U.
  change (ten ^ (p - 1 - e))%Q with (p10 (p - 1 - e)) in K. change (ten ^ (e - p + 1))%Q with (p10 (e - p + 1)) in R.
  set (x := (f * p10 (p - 1 - e))%Q) in *.
  assert (Ax : (Qabs x == Qabs f * p10 (p - 1 - e))%Q) by (unfold x; rewrite Qabs_Qmult, (Qabs_pos (p10 _)) by (apply Qlt_le_weak, p10_pos); reflexivity).
  assert (X1 : (inject_Z (10 ^ (p - 1)) <= Qabs x)%Q).
  { rewrite Ax, <- p10_Z by lia. replace (p - 1) with (e + (p - 1 - e)) at 1 by lia. rewrite p10_add. apply Qmult_le_r; [apply p10_pos|exact L]. }
  assert (X2 : (Qabs x < inject_Z (10 ^ p))%Q).
  { rewrite Ax, <- p10_Z by lia. replace p with (e + 1 + (p - 1 - e)) at 2 by lia. rewrite p10_add. apply Qmult_lt_r; [apply p10_pos|exact U]. }
  assert (Ek : (inject_Z (Z.abs k) == Qabs (inject_Z k))%Q) by reflexivity.
  assert (T1 : (Qabs (inject_Z k) <= Qabs x + (1 # 2))%Q).
  { setoid_replace (inject_Z k) with (x + (inject_Z k - x))%Q by ring. eapply Qle_trans; [apply Qabs_triangle|]. lra. }
  assert (T2 : (Qabs x <= Qabs (inject_Z k) + (1 # 2))%Q).
  { setoid_replace x with (inject_Z k + (x - inject_Z k))%Q at 1 by ring. eapply Qle_trans; [apply Qabs_triangle|].
    rewrite (Qabs_Qminus x). lra. }
  assert (KB : 10 ^ (p - 1) <= Z.abs k <= 10 ^ p).
  { rewrite <- Ek in *. split.
    - assert (H : (inject_Z (10 ^ (p - 1)) < inject_Z (Z.abs k + 1))%Q) by (rewrite inject_Z_plus; change (inject_Z 1) with 1%Q; lra).
      apply (proj1 (inj_lt _ _)) in H. lia.
    - assert (H : (inject_Z (Z.abs k) < inject_Z (10 ^ p + 1))%Q) by (rewrite inject_Z_plus; change (inject_Z 1) with 1%Q; lra).
      apply (proj1 (inj_lt _ _)) in H. lia. }
  split; [exact KB|]. assert (Ar : (Qabs r == dec (Z.abs k) (e - p + 1))%Q) by (rewrite R; apply Qabs_dec).
  rewrite Ar. split; [|split].
  - assert (Ee : (p10 e == dec (1 * 10 ^ (p - 1)) (e - p + 1))%Q).
    { rewrite dec_shift by lia. rewrite dec_1. replace (e - p + 1 + (p - 1)) with e by lia. reflexivity. }
    rewrite Ee. apply dec_le_iff. lia.
  - assert (Ee : (p10 (e + 1) == dec (1 * 10 ^ p) (e - p + 1))%Q).
    { rewrite dec_shift by lia. rewrite dec_1. replace (e - p + 1 + p) with (e + 1) by lia. reflexivity. }
    rewrite Ee. apply dec_le_iff. lia.
  - apply (mult_comp (dec k (e - p + 1))); [symmetry; exact R|]. apply mult_dec. lia.
Qed.

Lemma firstn_all_len {A} (l : list A) n : Z.of_nat (length l) <= Z.of_nat n -> firstn n l = l.
Proof. intro H. apply firstn_all2. lia. Qed.

Lemma sci_least t r s : sci_text t r 101 -> (Qabs r < limit)%Q -> 0 <= s <= 16383 -> mult r s ->
  exists l, literal_text t l /\ in_range l /\ (literal_value l == r)%Q /\ least_scale r (literal_scale l).
Proof.
  intros T B Hs M. destruct (sci_literal t r 101 s T (or_introl eq_refl) B Hs M) as (l & L1 & L2 & L3 & L4).
  exists l. split; [exact L1|]. split; [exact L2|]. split; [exact L3|].
  assert (Sl : 0 <= literal_scale l) by (unfold literal_scale; lia). split; [exact Sl|]. split.
  - apply expressible_mult. destruct l as [n ip fp e].
    destruct (Z_le_gt_dec 0 (len fp - e)) as [A|A]; (apply (mult_comp _ _ _ L3); unfold literal_value; cbn [l_neg l_int l_frac l_exp];
      set (N := number_of (ip ++ fp)); change (ten ^ (e - len fp))%Q with (p10 (e - len fp));
      apply (mult_comp (dec (if n then - N else N) (e - len fp))); [unfold dec; destruct n; rewrite ?inject_Z_opp; ring|];
      apply mult_dec; unfold literal_scale; cbn [l_frac l_exp]; lia).
  - intros s' Hs' Ms'. destruct (Z_le_gt_dec s' 16383) as [G|G].
    + (* sci_literal again at s': its literal is determined by the text up to value and scale *)
      destruct (sci_literal t r 101 s' T (or_introl eq_refl) B ltac:(lia) Ms') as (l' & L1' & L2' & L3' & L4').
      destruct (parse_complete (Cfg false false) t t l (blank_spaced t) L1 L2) as (x & Ex & Sx).
      destruct (parse_complete (Cfg false false) t t l' (blank_spaced t) L1' L2') as (x' & Ex' & Sx').
      assert (x = x') by congruence. subst x'. destruct (stores_fun _ _ _ _ _ _ Sx Sx') as [_ E]. lia.
    + unfold in_range in L2. unfold literal_scale. lia.
Qed.

(** ** The text fits the buffer *)
Lemma plain_len t r s k : plain_text t r s -> (Qabs r < p10 k)%Q -> 1 <= k -> len t <= 2 + k + s.
Proof.
  intros (n & ip & fp & -> & Fi & Ff & Li & Lf & _ & Hq) B K. pose proof (len_nonneg fp).
  assert (L : len ip <= k).
  { apply (lead_len ip k Fi Li ltac:(lia)). pose proof (number_of_bound fp Ff) as Bf. rewrite Lf in Bf.
    change (ten ^ (- s))%Q with (p10 (- s)) in Hq. rewrite Hq in B. fold (dec (number_of (ip ++ fp)) (- s)) in B.
    assert (Ee : (p10 k == dec (1 * 10 ^ (k + s)) (- s))%Q).
    { rewrite dec_shift by lia. rewrite dec_1. replace (- s + (k + s)) with k by lia. reflexivity. }
    rewrite Ee in B. apply (proj1 (dec_lt_iff _ _ _)) in B.
    rewrite number_of_app, Lf in B. rewrite Z.mul_1_l, Z.pow_add_r in B by lia. pose proof (pT_pos s ltac:(lia)). nia. }
  rewrite !len_app. destruct n, (s =? 0); rewrite ?len_cons; change (len []) with 0; lia.
Qed.

Lemma sci_len t r E p : sci_text t r 101 -> 1 <= p -> -324 <= E <= 308 -> (p10 E <= Qabs r)%Q -> (Qabs r <= p10 (E + 1))%Q -> mult r (p - 1 - E) ->
  len t <= p + 8.
Proof.
  intros (n & d & fp & e & ed & -> & D & N & F & L & Fe & Ne & Le & Hn & V) P HE B1 B2 M.
  destruct (sci_parts d fp e r D N F V) as (R & R1 & R2). pose proof (number_last d fp N D F L) as KM.
  pose proof (mult_low _ _ _ _ KM V M) as Low.
  assert (A : (p10 E < p10 (e + 1))%Q) by (eapply Qle_lt_trans; eauto). apply (proj1 (p10_lt_iff _ _)) in A.
  assert (C : (p10 e <= p10 (E + 1))%Q) by (eapply Qle_trans; eauto). apply (proj1 (p10_le_iff _ _)) in C.
  assert (Led : len ed <= 3).
  { destruct Le as [Le|(Le & b & q & -> & Nb)]; [lia|]. pose proof (number_of_lead b q Fe Nb) as G. rewrite Ne in G. rewrite len_cons in *.
    destruct (Z_le_gt_dec (len q) 2) as [|X]; [lia|]. assert (10 ^ 3 <= 10 ^ len q) by (apply Z.pow_le_mono_r; lia). change (10 ^ 3) with 1000 in *. lia. }
  assert (Lm : len (match fp with [] => [] | _ => 46 :: fp end) <= 1 + len fp) by (destruct fp; rewrite ?len_cons; change (len []) with 0; lia).
  rewrite len_app, len_cons, len_app, !len_cons. destruct n; rewrite ?len_cons; change (len []) with 0; lia.
Qed.

(** ** from_floating *)
Lemma p10_limit k : k <= 131072 -> (p10 k <= limit)%Q.
Proof. intro H. rewrite limit_p10. apply p10_le. lia. Qed.

Theorem from_float_spec c pf p f : snprintf_sound (p_snprintf pf) -> p = 6 \/ p = 15 -> finite_in binary64 f ->
  exists x r s, from_floating c pf p (FNum f) = Ret (inl x) /\ significant p f r /\ stores (be_varlen c) x r s /\ least_scale r s.
Proof.
  intros SS Hp Fin. pose proof (SS p f Hp Fin) as [(Z0 & T)|(NZ & r & xx & Sg & X1 & X2 & T)].
  - assert (E : exists l, literal_text (p_snprintf pf p f) l /\ in_range l /\ (literal_value l == 0)%Q /\ literal_scale l = 0).
    { destruct T as [->| ->].
      - exists (Literal false [48] [] 0). split; [|split; [unfold in_range, exponent_ok; cbn; lia|split; [reflexivity|reflexivity]]].
        exact (literal_intro [] [48] [] false [48] [] 0 sign_none (mantissa_int [48] ltac:(discriminate) ltac:(repeat constructor; unfold digit_char; lia)) exponent_none).
      - exists (Literal true [48] [] 0). split; [|split; [unfold in_range, exponent_ok; cbn; lia|split; [reflexivity|reflexivity]]].
        exact (literal_intro [45] [48] [] true [48] [] 0 sign_minus (mantissa_int [48] ltac:(discriminate) ltac:(repeat constructor; unfold digit_char; lia)) exponent_none). }
    destruct E as (l & L1 & L2 & L3 & L4). destruct (parse_complete c _ _ l (blank_spaced _) L1 L2) as (x & Ex & Sx).
    exists x, 0%Q, 0. unfold from_floating. rewrite firstn_all_len by (destruct T as [-> | ->]; cbn; lia). rewrite Ex. cbn [bind].
    split; [reflexivity|]. split; [left; split; [exact Z0|reflexivity]|]. split; [rewrite L4 in Sx; now apply (stores_ext _ _ _ _ _ L3)|].
    split; [lia|]. split; [exists 0; reflexivity|]. intros; lia.
  - destruct Sg as [[Z0 _]|(e & k & E1 & E2 & E3 & E4)]; [contradiction|].
    pose proof (finite_range f e Fin E1 E2) as Re. assert (P1 : 1 <= p <= 15) by lia.
    destruct (significant_bounds p f r e k ltac:(lia) E1 E2 E3 E4) as (_ & B1 & B2 & Mr).
    assert (Lim : (Qabs r < limit)%Q) by (eapply Qle_lt_trans; [exact B2|]; rewrite limit_p10; apply p10_lt; lia).
    assert (M0 : mult r 400) by (apply (mult_up _ (p - 1 - e)); [lia|exact Mr]).
    change (ten ^ xx)%Q with (p10 xx) in X1. change (ten ^ (xx + 1))%Q with (p10 (xx + 1)) in X2.
    assert (A : (p10 e < p10 (xx + 1))%Q) by (eapply Qle_lt_trans; eauto). apply (proj1 (p10_lt_iff _ _)) in A.
    assert (C : (p10 xx <= p10 (e + 1))%Q) by (eapply Qle_trans; eauto). apply (proj1 (p10_le_iff _ _)) in C.
    assert (G : exists l, literal_text (p_snprintf pf p f) l /\ in_range l /\ (literal_value l == r)%Q /\ least_scale r (literal_scale l)
              /\ len (p_snprintf pf p f) <= 127).
    { destruct (Z.leb_spec (-4) xx) as [Y1|Y1]; [destruct (Z.ltb_spec xx p) as [Y2|Y2]|]; cbn [andb] in T.
      - destruct (shortest_least _ r (Z.max 0 (p - 1 - e)) T Lim ltac:(lia) ltac:(apply (mult_up _ (p - 1 - e)); [lia|exact Mr])) as (s & Ps & Hs & Ls).
        destruct (plain_literal _ _ _ Ps Lim ltac:(lia)) as (l & L1 & L2 & L3 & L4).
        exists l. rewrite L4. split; [exact L1|]. split; [exact L2|]. split; [exact L3|]. split; [exact Ls|].
        assert (Hl : len (p_snprintf pf p f) <= 2 + (Z.max 1 (xx + 1)) + s).
        { apply (plain_len _ r); [exact Ps| |lia]. eapply Qlt_le_trans; [exact X2|]. apply p10_le. lia. }
        lia.
      - destruct (sci_least _ _ 400 T Lim ltac:(lia) M0) as (l & L1 & L2 & L3 & L4). exists l. pose proof (sci_len _ r e p T ltac:(lia) Re B1 B2 Mr). tauto || (repeat (split; [assumption|]); lia).
      - destruct (sci_least _ _ 400 T Lim ltac:(lia) M0) as (l & L1 & L2 & L3 & L4). exists l. pose proof (sci_len _ r e p T ltac:(lia) Re B1 B2 Mr). repeat (split; [assumption|]); lia. }
    destruct G as (l & L1 & L2 & L3 & L4 & L5). destruct (parse_complete c _ _ l (blank_spaced _) L1 L2) as (x & Ex & Sx).
    exists x, r, (literal_scale l). unfold from_floating.
    rewrite firstn_all_len by (change (Z.of_nat (Z.to_nat (BUF_SIZE - 1))) with 127; exact L5). rewrite Ex. cbn [bind].
    split; [reflexivity|]. split; [right; exists e, k; tauto|]. split; [now apply (stores_ext _ _ _ _ _ L3)|exact L4].
Qed.

Lemma from_float_nan c pf p : exists x, from_floating c pf p FNaN = Ret (inl x) /\ stores_nan (be_varlen c) x.
Proof. exists (nan_layout (be_varlen c)). split; [|reflexivity]. unfold from_floating. destruct c as [[] []]; vm_compute; reflexivity. Qed.

Lemma from_float_inf c pf p n : from_floating c pf p (FInf n) = Ret (inr CInvalid).
Proof. reflexivity. Qed.
