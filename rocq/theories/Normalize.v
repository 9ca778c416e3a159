(** * Normalize: the normalize() key. *)
From Coq Require Import ZArith QArith Qabs Qpower List Bool Lia Lqa.
From Verif Require Import Base Var Binary Format Parse Num Spec SpecApi SpecText QDec Digits Arith Strip Codec Make Api1 Api3
  Text ParseText ParseVal ParseApi FormatText FormatApi.
Import ListNotations.
Open Scope Z_scope.

Lemma drop_ch0_split s : exists k, s = repeat 48 k ++ drop_ch0 s /\ (forall b r, drop_ch0 s = b :: r -> b <> 48).
Proof.
  induction s as [|b s (k & E & N)].
  - exists 0%nat. split; [reflexivity|discriminate].
  - cbn [drop_ch0]. change ch_0 with 48. destruct (Z.eqb_spec b 48) as [->|Nb].
    + exists (S k). split; [cbn; now rewrite <- E|exact N].
    + exists 0%nat. split; [reflexivity|]. intros b' r E'. now injection E' as -> ->.
Qed.

Lemma drop_ch0_app k s : (forall b r, s = b :: r -> b <> 48) -> drop_ch0 (repeat 48 k ++ s) = s.
Proof.
  intro H. induction k as [|k IH]; cbn; [|exact IH]. destruct s as [|b r]; [reflexivity|]. cbn. change ch_0 with 48.
  destruct (Z.eqb_spec b 48) as [->|N]; [|reflexivity]. now destruct (H 48 r eq_refl).
Qed.

Lemma digit_not_dot l : Forall digit_char l -> existsb (fun b => b =? ch_dot) l = false.
Proof.
  induction 1 as [|b l H _ IH]; [reflexivity|]. cbn. rewrite IH. change ch_dot with 46.
  destruct (Z.eqb_spec b 46); [unfold digit_char in H; lia|reflexivity].
Qed.

(** A plain text of [q] whose last decimal is not zero has the least possible scale. *)
Lemma last_digit_minimal ip fp b q s1 t2 s2 :
  Forall digit_char (fp ++ [b]) -> len (fp ++ [b]) = s1 ->
  (Qabs q == inject_Z (number_of (ip ++ fp ++ [b])) * ten ^ (- s1))%Q -> b <> 48 ->
  plain_text t2 q s2 -> s1 <= s2.
Proof.
  intros Ff L Hq Nb (n2 & ip2 & fp2 & _ & Fi2 & Ff2 & _ & L2 & _ & Hq2).
  destruct (Z_le_dec s1 s2) as [K|K]; [exact K|]. exfalso.
  assert (E : (dec (number_of (ip ++ fp ++ [b])) (- s1) == dec (number_of (ip2 ++ fp2)) (- s2))%Q).
  { unfold dec. change (p10 (- s1)) with (ten ^ (- s1))%Q. change (p10 (- s2)) with (ten ^ (- s2))%Q. now rewrite <- Hq, <- Hq2. }
  pose proof (dec_shift (number_of (ip2 ++ fp2)) (- s1) (s1 - s2) ltac:(lia)) as E2.
  replace (- s1 + (s1 - s2)) with (- s2) in E2 by lia. rewrite <- E2 in E. apply (proj1 (dec_eq_iff _ _ _)) in E.
  replace (s1 - s2) with (1 + (s1 - s2 - 1)) in E by lia. rewrite Z.pow_add_r in E by lia.
  rewrite app_assoc, number_of_app, number_of_1 in E. change (len [b]) with 1 in E.
  apply Forall_app in Ff. destruct Ff as [_ Fb]. inversion Fb as [|? ? Db _]; subst. unfold digit_char in Db.
  change (10 ^ 1) with 10 in E. lia.
Qed.

Lemma plain_shortest t q s : plain_text t q s -> (s = 0 \/ exists t' b, t = t' ++ [b] /\ b <> 48) -> shortest_text t q.
Proof.
  intros P H. exists s. split; [exact P|]. intros t2 s2 P2.
  assert (P0 : 0 <= s2) by (destruct P2 as (? & ? & ? & _ & _ & _ & _ & <- & _); apply len_nonneg).
  destruct H as [->|(t' & b & E & Nb)]; [lia|].
  destruct P as (n & ip & fp & Et & Fi & Ff & Li & Lf & Hn & Hq).
  destruct (Z.eqb_spec s 0) as [Z0|Z0]; [lia|].
  destruct (rev fp) as [|b' r] eqn:Er.
  - apply (f_equal (@rev Z)) in Er. rewrite rev_involutive in Er. subst fp. cbn in Lf. lia.
  - apply (f_equal (@rev Z)) in Er. rewrite rev_involutive in Er. cbn in Er. subst fp.
    assert (b' = b).
    { rewrite Et in E. change (46 :: rev r ++ [b']) with ((46 :: rev r) ++ [b']) in E. rewrite !app_assoc in E.
      apply app_inj_tail in E. tauto. }
    subst b'. exact (last_digit_minimal ip (rev r) b q s t2 s2 Ff Lf Hq Nb P2).
Qed.

Lemma normalize_spec c v : canon v -> exists t, normalize c v = Ret t /\ shortest_text t (vval v).
Proof.
  intro C. destruct (write_spec c v C) as (t & E & P). unfold normalize. pose proof (canon_nan v C) as Nn.
  assert (Hn : is_nan v = false) by (unfold is_nan; destruct (sign v); [reflexivity|reflexivity|congruence]). rewrite Hn, E. cbn [bind].
  pose proof P as (n & ip & fp & Et & Fi & Ff & Li & Lf & Hsg & Hq).
  assert (Nd : existsb (fun b => b =? ch_dot) ((if n then [45] else []) ++ ip) = false).
  { rewrite existsb_app, (digit_not_dot ip Fi). now destruct n. }
  destruct (Z.eqb_spec (dscale v) 0) as [Z0|Z0].
  - rewrite app_nil_r in Et. rewrite Et, Nd. exists t. rewrite Et. split; [reflexivity|]. rewrite <- Et.
    apply (plain_shortest t _ (dscale v) P). now left.
  - assert (Hd : existsb (fun b => b =? ch_dot) t = true).
    { rewrite Et, app_assoc, existsb_app. apply orb_true_intro. right. reflexivity. }
    rewrite Hd.
    destruct (drop_ch0_split (rev fp)) as (k & Es & Nz). set (r := drop_ch0 (rev fp)) in *.
    assert (Efp : fp = rev r ++ repeat 48 k).
    { apply (f_equal (@rev Z)) in Es. rewrite rev_involutive, rev_app_distr in Es. rewrite Es. f_equal.
      clear. induction k as [|k IH]; [reflexivity|]. cbn. rewrite IH. symmetry. apply repeat_cons. }
    assert (Rt : drop_ch0 (rev t) = r ++ [46] ++ rev ip ++ rev (if n then [45] else [])).
    { rewrite Et, !rev_app_distr. change (rev (46 :: fp)) with (rev fp ++ [46]). rewrite Es, <- !app_assoc.
      apply drop_ch0_app. intros b q Eb. destruct r as [|b0 r0]; cbn in Eb; injection Eb as <- _; [lia|].
      exact (Nz b0 r0 eq_refl). }
    rewrite Rt. clear Rt.
    assert (Fr : Forall digit_char (rev r)) by (rewrite Efp in Ff; apply Forall_app in Ff; tauto).
    assert (Lr : len (rev r) + Z.of_nat k = dscale v).
    { rewrite <- Lf, Efp, len_app. f_equal. rewrite len_lenz. unfold lenz. now rewrite repeat_length. }
    assert (Q' : (Qabs (vval v) == inject_Z (number_of (ip ++ rev r)) * ten ^ (- len (rev r)))%Q).
    { rewrite Hq. rewrite Efp, app_assoc, number_of_app, number_of_zeros0, Z.add_0_r.
      replace (len (repeat 48 k)) with (Z.of_nat k) by (rewrite len_lenz; unfold lenz; now rewrite repeat_length).
      change (dec (number_of (ip ++ rev r) * 10 ^ Z.of_nat k) (- dscale v) == dec (number_of (ip ++ rev r)) (- len (rev r)))%Q.
      rewrite dec_shift by lia. replace (- dscale v + Z.of_nat k) with (- len (rev r)) by lia. reflexivity. }
    destruct r as [|b r0] eqn:Er.
    + cbn [app]. change ch_dot with 46. cbn [Z.eqb Pos.eqb]. rewrite rev_app_distr, !rev_involutive.
      exists ((if n then [45] else []) ++ ip). split; [reflexivity|]. apply (plain_shortest _ _ 0); [|now left].
      exists n, ip, []. split; [now rewrite app_nil_r|]. split; [exact Fi|]. split; [constructor|]. split; [exact Li|].
      split; [reflexivity|]. split; [exact Hsg|]. exact Q'.
    + cbn [app]. change ch_dot with 46.
      assert (Db : digit_char b). { cbn in Fr. apply Forall_app in Fr. destruct Fr as [_ Fb]. now inversion Fb. }
      destruct (Z.eqb_spec b 46) as [Eb|_]; [unfold digit_char in Db; lia|].
      eexists. split; [reflexivity|].
      change (b :: r0 ++ 46 :: rev ip ++ rev (if n then [45] else [])) with ((b :: r0) ++ [46] ++ rev ip ++ rev (if n then [45] else [])).
      rewrite !rev_app_distr, !rev_involutive.
      assert (L0 : 0 < len (rev (b :: r0))). { cbn. rewrite len_app. pose proof (len_nonneg (rev r0)). change (len [b]) with 1. lia. }
      apply (plain_shortest _ _ (len (rev (b :: r0)))).
      * exists n, ip, (rev (b :: r0)). split.
        { destruct (Z.eqb_spec (len (rev (b :: r0))) 0) as [H0|_]; [lia|]. now rewrite <- !app_assoc. }
        split; [exact Fi|]. split; [exact Fr|]. split; [exact Li|].
        split; [reflexivity|]. split; [exact Hsg|]. exact Q'.
      * right. exists ((((if n then [45] else []) ++ ip) ++ rev [46]) ++ rev r0), b. split; [cbn [rev]; now rewrite app_assoc|].
        exact (Nz b r0 eq_refl).
Qed.

Lemma shortest_unique t1 t2 q q' : (q == q')%Q -> shortest_text t1 q -> shortest_text t2 q' -> t1 = t2.
Proof.
  intros E (s1 & P1 & M1) (s2 & P2 & M2). apply (plain_ext _ _ q) in P2; [|now symmetry].
  assert (s1 = s2). { apply Z.le_antisymm; [now apply (M1 t2)|]. apply (M2 t1). now apply (plain_ext _ q). }
  subst s2. exact (plain_unique _ _ _ _ P1 P2).
Qed.

Lemma plain_value t q1 s1 q2 s2 : plain_text t q1 s1 -> plain_text t q2 s2 -> (q1 == q2)%Q.
Proof.
  intros (n1 & i1 & f1 & E1 & Fi1 & Ff1 & Li1 & L1 & N1 & Q1) (n2 & i2 & f2 & E2 & Fi2 & Ff2 & Li2 & L2 & N2 & Q2).
  assert (H1 : forall i, Forall digit_char i -> forall b r, i = b :: r -> b <> 45).
  { intros i F b r ->. inversion F as [|? ? D]; subst. unfold digit_char in D. lia. }
  assert (Ne : forall i, lead_ok i -> i <> []) by (intros i [->|(? & ? & -> & _)]; discriminate).
  assert (En : n1 = n2).
  { rewrite E1 in E2. destruct i1 as [|b1 i1]; [now destruct (Ne [] Li1)|]. destruct i2 as [|b2 i2]; [now destruct (Ne [] Li2)|].
    destruct n1, n2; try reflexivity; injection E2 as E2 _; [now destruct (H1 _ Fi2 b2 i2 eq_refl)|now destruct (H1 _ Fi1 b1 i1 eq_refl)]. }
  subst n2. rewrite E1 in E2. apply app_inv_head in E2.
  assert (Split : forall a b r1 r2, Forall digit_char a -> Forall digit_char b -> 
     (r1 = [] \/ exists x, r1 = 46 :: x) -> (r2 = [] \/ exists x, r2 = 46 :: x) -> a ++ r1 = b ++ r2 -> a = b /\ r1 = r2).
  { induction a as [|x a IH]; intros b r1 r2 Fa Fb R1 R2 E.
    - destruct b as [|y b]; [now split|]. exfalso. cbn in E. pose proof (Forall_inv Fb) as Dy. unfold digit_char in Dy.
      destruct R1 as [R1|(u & R1)]; rewrite R1 in E; [discriminate|]. injection E as E _. lia.
    - destruct b as [|y b].
      + exfalso. cbn in E. pose proof (Forall_inv Fa) as Dx. unfold digit_char in Dx.
        destruct R2 as [R2|(u & R2)]; rewrite R2 in E; [discriminate|]. injection E as E _. lia.
      + cbn in E. injection E as -> E. destruct (IH b r1 r2 (Forall_inv_tail Fa) (Forall_inv_tail Fb) R1 R2 E) as [-> ->]. now split. }
  apply Split in E2; auto.
  2,3: match goal with |- context [if ?b then _ else _] => destruct b end; [now left|right; eexists; reflexivity].
  destruct E2 as [<- E2].
  assert (Es : s1 = s2 /\ f1 = f2).
  { destruct (Z.eqb_spec s1 0), (Z.eqb_spec s2 0); try discriminate.
    - split; [lia|]. assert (G : forall f, len f = 0 -> f = []).
      { intros [|y f] G; [reflexivity|]. rewrite len_cons in G. pose proof (len_nonneg f). lia. }
      rewrite (G f1), (G f2); auto; lia.
    - injection E2 as <-. split; [lia|reflexivity]. }
  destruct Es as [<- <-]. assert (A : (Qabs q1 == Qabs q2)%Q) by now rewrite Q1, Q2.
  destruct n1.
  - assert (q1 < 0)%Q by now apply N1. assert (q2 < 0)%Q by now apply N2. rewrite !Qabs_neg in A by lra. lra.
  - assert (0 <= q1)%Q by (destruct (Qlt_le_dec q1 0) as [L|L]; [apply N1 in L; discriminate|exact L]).
    assert (0 <= q2)%Q by (destruct (Qlt_le_dec q2 0) as [L|L]; [apply N2 in L; discriminate|exact L]).
    rewrite !Qabs_pos in A by lra. exact A.
Qed.

Lemma plain_not_nan t q s : plain_text t q s -> t <> [78; 97; 78].
Proof.
  intros (n & ip & fp & -> & Fi & _ & Li & _) E. destruct n; [discriminate|].
  destruct ip as [|b ip]; [destruct Li as [Li|(? & ? & Li & _)]; discriminate|].
  injection E as E _. inversion Fi as [|? ? D]; subst. unfold digit_char in D. lia.
Qed.

Lemma num_normalize_spec c x q s : stores (be_varlen c) x q s -> exists t, num_normalize c x = Ret t /\ shortest_text t q.
Proof.
  intro H. destruct (stores_elim _ _ _ _ H) as (v & C & -> & V & <-). unfold num_normalize.
  rewrite (as_var_spec c v (canon_storable v C)). cbn [bind]. destruct (normalize_spec c v C) as (t & E & s' & P & M).
  exists t. split; [exact E|]. exists s'. split; [now apply (plain_ext t (vval v))|]. intros t' s'' P'. apply (M t').
  apply (plain_ext t' q); [now symmetry|exact P'].
Qed.

Lemma num_normalize_nan c x : stores_nan (be_varlen c) x -> num_normalize c x = Ret [78; 97; 78].
Proof. intros ->. unfold num_normalize. rewrite nan_as_var. reflexivity. Qed.

Lemma normalize_key c x y a b : denotes (be_varlen c) x a -> denotes (be_varlen c) y b ->
  exists tx ty, num_normalize c x = Ret tx /\ num_normalize c y = Ret ty /\ (tx = ty <-> same_value a b).
Proof.
  destruct a as [p|], b as [q|]; cbn; intros A B.
  - destruct A as (s1 & A), B as (s2 & B). destruct (num_normalize_spec c x p s1 A) as (t1 & E1 & P1).
    destruct (num_normalize_spec c y q s2 B) as (t2 & E2 & P2). exists t1, t2. split; [exact E1|]. split; [exact E2|]. split.
    + intros <-. destruct P1 as (u1 & P1 & _), P2 as (u2 & P2 & _). exact (plain_value _ _ _ _ _ P1 P2).
    + intro E. exact (shortest_unique t1 t2 p q E P1 P2).
  - destruct A as (s1 & A). destruct (num_normalize_spec c x p s1 A) as (t1 & E1 & u1 & P1 & _). exists t1, [78; 97; 78].
    split; [exact E1|]. split; [now apply num_normalize_nan|]. split; [|tauto]. intro E. exact (plain_not_nan _ _ _ P1 E).
  - destruct B as (s2 & B). destruct (num_normalize_spec c y q s2 B) as (t2 & E2 & u2 & P2 & _). exists [78; 97; 78], t2.
    split; [now apply num_normalize_nan|]. split; [exact E2|]. split; [|tauto]. intro E. exact (plain_not_nan _ _ _ P2 (eq_sym E)).
  - exists [78; 97; 78], [78; 97; 78]. split; [now apply num_normalize_nan|]. split; [now apply num_normalize_nan|]. tauto.
Qed.

Lemma valid_denotes be x : valid be x -> exists a, denotes be x a.
Proof. intros [N|(q & s & S)]; [exists None; exact N|exists (Some q); exists s; exact S]. Qed.

Lemma normalize_eq c x y : valid (be_varlen c) x -> valid (be_varlen c) y ->
  exists tx ty, num_normalize c x = Ret tx /\ num_normalize c y = Ret ty /\ (tx = ty <-> num_eq c x y = Ret true).
Proof.
  intros A B. destruct (valid_denotes _ _ A) as (a & Ha). destruct (valid_denotes _ _ B) as (b & Hb).
  destruct (normalize_key c x y a b Ha Hb) as (tx & ty & E1 & E2 & K). exists tx, ty. split; [exact E1|]. split; [exact E2|].
  destruct (num_eq_spec c x y a b Ha Hb) as (r & Er & Kr). rewrite Er. split.
  - intro E. f_equal. apply Kr. now apply K.
  - intro E. apply K, Kr. now injection E.
Qed.

Lemma text_profiles be x : valid be x ->
  num_display (Cfg true be) x = num_display (Cfg false be) x /\
  num_normalize (Cfg true be) x = num_normalize (Cfg false be) x.
Proof.
  intros [N|(q & s & S)].
  - split; [rewrite !display_nan by exact N|rewrite !num_normalize_nan by exact N]; reflexivity.
  - split.
    + destruct (display_spec (Cfg true be) x q s S) as (t1 & -> & P1). destruct (display_spec (Cfg false be) x q s S) as (t2 & -> & P2).
      f_equal. exact (plain_unique _ _ _ _ P1 P2).
    + destruct (num_normalize_spec (Cfg true be) x q s S) as (t1 & -> & P1). destruct (num_normalize_spec (Cfg false be) x q s S) as (t2 & -> & P2).
      f_equal. apply (shortest_unique _ _ q q); [reflexivity|exact P1|exact P2].
Qed.
