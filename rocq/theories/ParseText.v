(** * ParseText: the recogniser of parse.rs against the grammar of SpecText. *)
From Coq Require Import ZArith QArith Qabs Qpower List Bool Lia.
From Verif Require Import Base Var Format Parse Spec SpecText QDec Digits Arith Text.
Import ListNotations.
Open Scope Z_scope.

Definition sgn_of (n : bool) : sgn := if n then SNeg else SPos.

Definition no_digit (r : list Z) : Prop := forall b t, r = b :: t -> ~ digit_char b.

Lemma extract_sign_split s : exists st n r, extract_sign s = (sgn_of n, r) /\ s = st ++ r /\ sign_text st n.
Proof.
  destruct s as [|b t]; cbn [extract_sign].
  - exists [], false, []. repeat split. constructor.
  - change ch_plus with 43. change ch_dash with 45.
    destruct (Z.eqb_spec b 43) as [->|N1]; [|destruct (Z.eqb_spec b 45) as [->|N2]].
    + exists [43], false, t. repeat split. constructor.
    + exists [45], true, t. repeat split. constructor.
    + exists [], false, (b :: t). repeat split. constructor.
Qed.

Lemma extract_sign_app st n r : sign_text st n -> (forall b t, r = b :: t -> b <> 43 /\ b <> 45) ->
  extract_sign (st ++ r) = (sgn_of n, r).
Proof.
  intros S N. destruct S; cbn [app extract_sign sgn_of]; try reflexivity.
  destruct r as [|b t]; [reflexivity|]. cbn [extract_sign]. destruct (N b t eq_refl) as [N1 N2].
  change ch_plus with 43. change ch_dash with 45.
  now rewrite (proj2 (Z.eqb_neq b 43) N1), (proj2 (Z.eqb_neq b 45) N2).
Qed.

Lemma drop_lead0_split s : exists k, s = repeat 48 k ++ drop_lead0 s.
Proof.
  induction s as [|b s (k & E)]; cbn [drop_lead0]; [now exists O|]. change ch_0 with 48.
  destruct (Z.eqb_spec b 48) as [->|N]; [|now exists O]. exists (S k). cbn. now rewrite <- E.
Qed.

Lemma drop_lead0_head s b t : drop_lead0 s = b :: t -> b <> 48.
Proof.
  induction s as [|a s IH]; cbn [drop_lead0]; [discriminate|]. change ch_0 with 48.
  destruct (Z.eqb_spec a 48) as [->|N]; [exact IH|]. now intros [= <- _].
Qed.

Lemma read_int_number s : read_int s = number_of s.
Proof. reflexivity. Qed.

Lemma number_of_drop s : number_of (drop_lead0 s) = number_of s.
Proof. destruct (drop_lead0_split s) as (k & E). rewrite E at 2. now rewrite number_of_zeros. Qed.

Lemma Forall_drop_lead0 P s : Forall P s -> Forall P (drop_lead0 s).
Proof. destruct (drop_lead0_split s) as (k & E). rewrite E at 1. intro F. now apply Forall_app in F. Qed.

Lemma big_number s : Forall digit_char s -> 10 < lenz (drop_lead0 s) -> 10 ^ 10 <= number_of s.
Proof.
  intros F L. rewrite <- number_of_drop. pose proof (Forall_drop_lead0 _ _ F) as F'.
  pose proof (drop_lead0_head s) as H. destruct (drop_lead0 s) as [|b t]; [rewrite lenz_nil in L; lia|].
  rewrite lenz_cons in L. pose proof (number_of_lead b t F' (H b t eq_refl)) as B.
  apply Z.le_trans with (10 ^ len t); [|exact B]. apply Z.pow_le_mono_r; [lia|]. rewrite len_lenz. lia.
Qed.

(** The exponent after 'e'. *)
Lemma extract_exponent_app st n ds r : sign_text st n -> ds <> [] -> Forall digit_char ds -> no_digit r ->
  let e := if n then - number_of ds else number_of ds in
  extract_exponent (st ++ ds ++ r) = if Z.abs e <? 1073741823 then inl (e, r) else inr POverflow.
Proof.
  intros S N F D e. unfold extract_exponent. rewrite (extract_sign_app st n (ds ++ r) S).
  2:{ intros b t E. destruct ds as [|d ds]; [congruence|]. injection E as <- _.
      pose proof (Forall_inv F) as H. unfold digit_char in H. lia. }
  rewrite eat_digits_app by assumption.
  assert (Hne : forall (A : Type) (x y : A), (match ds with [] => x | _ => y end) = y) by (destruct ds; [congruence|reflexivity]).
  rewrite Hne. clear Hne.
  change (Z.quot I32_MAX 2) with 1073741823. rewrite read_int_number, number_of_drop.
  pose proof (number_of_bound ds F) as B.
  assert (He : (match sgn_of n with SNeg => - number_of ds | _ => number_of ds end) = e) by (destruct n; reflexivity).
  rewrite He. destruct (Z.ltb_spec 10 (lenz (drop_lead0 ds))) as [L|L].
  - pose proof (big_number ds F L) as B'. change (10 ^ 10) with 10000000000 in B'.
    replace (Z.abs e <? 1073741823) with false; [reflexivity|]. symmetry. apply Z.ltb_ge. unfold e. destruct n; lia.
  - destruct (Z.leb_spec 1073741823 e); destruct (Z.leb_spec e (- (1073741823))); cbn [orb];
      destruct (Z.ltb_spec (Z.abs e) 1073741823); try reflexivity; lia.
Qed.

Lemma extract_exponent_split s :
  (extract_exponent s = inr PInvalid) \/
  exists st n ds r, s = st ++ ds ++ r /\ sign_text st n /\ ds <> [] /\ Forall digit_char ds /\ no_digit r.
Proof.
  destruct (extract_sign_split s) as (st & n & r & E & Es & S).
  destruct (eat_digits r) as [ds r'] eqn:Ed. destruct (eat_digits_spec _ _ _ Ed) as (Er & F & N).
  destruct ds as [|d ds].
  - left. unfold extract_exponent. now rewrite E, Ed.
  - right. exists st, n, (d :: ds), r'. subst r. repeat split; auto. discriminate.
Qed.

(** What may follow a literal without being absorbed into it. *)
Definition stops (r : list Z) : Prop :=
  forall b t, r = b :: t -> ~ digit_char b /\ b <> 46 /\ b <> 101 /\ b <> 69.

Lemma stops_no_digit r : stops r -> no_digit r.
Proof. intros S b t E. now apply (S b t). Qed.

Lemma blank_stops r : blank r -> stops r.
Proof.
  intros B b t ->. pose proof (Forall_inv B) as H. unfold space_char in H. cbn in H. unfold digit_char. lia.
Qed.

Lemma is_e_iff b : is_e b = true <-> b = 101 \/ b = 69.
Proof. unfold is_e. change ch_e with 101. change ch_E with 69. now rewrite orb_true_iff, !Z.eqb_eq. Qed.

Lemma is_e_false b : is_e b = false <-> b <> 101 /\ b <> 69.
Proof. pose proof (is_e_iff b) as H. destruct (is_e b); split; intro H0; try congruence; intuition congruence. Qed.

Definition dec_of (l : literal) : decimal := Decimal (sgn_of (l_neg l)) (l_int l) (l_frac l) (l_exp l).

Lemma ltb_abs_0 : (Z.abs 0 <? 1073741823) = true. Proof. reflexivity. Qed.

(** Completeness. *)
Lemma parse_decimal_app t l r : literal_text t l -> (stops r \/ (l_exp l <> 0 /\ no_digit r)) ->
  parse_decimal (t ++ r) =
    if Z.abs (l_exp l) <? 1073741823 then inl (dec_of l, r) else inr POverflow.
Proof.
  intros L St. destruct L as [sg m ex n ip fp e S M X]. cbn [l_exp] in *. unfold dec_of. cbn [l_neg l_int l_frac l_exp].
  assert (Nd : no_digit r) by (destruct St as [St|[_ St]]; [now apply stops_no_digit|exact St]).
  rewrite <- !app_assoc. unfold parse_decimal.
  rewrite (extract_sign_app sg n (m ++ ex ++ r) S).
  2:{ intros b t E. destruct M as [ip0 N F|ip0 fp0 N F1 F2].
      - destruct ip0 as [|d ip1]; [congruence|]. injection E as <- _. pose proof (Forall_inv F) as H. unfold digit_char in H. lia.
      - destruct ip0 as [|d ip1]; injection E as <- _; [lia|]. pose proof (Forall_inv F1) as H. unfold digit_char in H. lia. }
  assert (Hne : forall (A : Type) (x y : A), (match m ++ ex ++ r with [] => x | _ => y end) = y).
  { intros A x y. destruct M as [ip0 N F|ip0 fp0 N F1 F2].
    - destruct ip0; [congruence|reflexivity].
    - destruct ip0; reflexivity. }
  rewrite Hne. clear Hne.
  (* the text after the mantissa *)
  assert (Hx : forall b q, ex ++ r = b :: q -> ~ digit_char b /\ b <> 46 \/ (False)).
  { intros b q E. left. destruct X as [|b0 sg0 n0 ds Hb S0 N0 F0].
    - destruct St as [St|[St _]]; [|congruence]. cbn in E. destruct (St b q E) as (A & B & _). tauto.
    - injection E as <- _. unfold digit_char. lia. }
  destruct M as [ip0 N F|ip0 fp0 N F1 F2].
  - rewrite eat_digits_app; [|exact F|intros b q E; destruct (Hx b q E) as [[? _]|[]]; assumption].
    assert (Hno : forall (A : Type) (x y : A), (match ip0 with [] => x | _ => y end) = y) by (destruct ip0; [congruence|reflexivity]).
    rewrite Hno. clear Hno.
    destruct X as [|b sg0 n0 ds Hb S0 N0 F0].
    + cbn [app]. rewrite ltb_abs_0. destruct r as [|b q]; [reflexivity|].
      destruct St as [St|[St _]]; [|congruence]. destruct (St b q eq_refl) as (A & B & C1 & C2).
      rewrite (proj2 (is_e_false b) (conj C1 C2)). change ch_dot with 46. now rewrite (proj2 (Z.eqb_neq b 46) B).
    + cbn [app]. rewrite (proj2 (is_e_iff b) Hb), <- app_assoc.
      rewrite (extract_exponent_app sg0 n0 ds r S0 N0 F0 Nd). destruct (Z.abs _ <? _); reflexivity.
  - rewrite <- app_assoc. cbn [app].
    rewrite (eat_digits_app ip0 (46 :: fp0 ++ ex ++ r)); [|exact F1|intros b q [= <- _]; unfold digit_char; lia].
    change (is_e 46) with false. change (46 =? ch_dot) with true. cbv iota.
    rewrite eat_digits_app; [|exact F2|intros b q E; destruct (Hx b q E) as [[? _]|[]]; assumption].
    replace ((match ip0 with [] => true | _ => false end) && (match fp0 with [] => true | _ => false end)) with false
      by (destruct ip0; [destruct fp0; [now elim N|reflexivity]|reflexivity]).
    destruct X as [|b sg0 n0 ds Hb S0 N0 F0].
    + cbn [app]. rewrite ltb_abs_0. destruct r as [|b q]; [reflexivity|].
      destruct St as [St|[St _]]; [|congruence]. destruct (St b q eq_refl) as (A & B & C1 & C2).
      now rewrite (proj2 (is_e_false b) (conj C1 C2)).
    + cbn [app]. rewrite (proj2 (is_e_iff b) Hb), <- app_assoc.
      rewrite (extract_exponent_app sg0 n0 ds r S0 N0 F0 Nd). destruct (Z.abs _ <? _); reflexivity.
Qed.

(** Soundness: anything but "invalid" has a literal as a prefix. *)
Lemma parse_decimal_split s : parse_decimal s = inr PInvalid \/
  exists t l r, s = t ++ r /\ literal_text t l /\ (stops r \/ (l_exp l <> 0 /\ no_digit r) \/ exponent_ok l) /\
    parse_decimal s = (if Z.abs (l_exp l) <? 1073741823 then inl (dec_of l, r) else inr POverflow).
Proof.
  unfold parse_decimal. destruct (extract_sign_split s) as (st & n & s1 & E & Es & S). rewrite E.
  destruct s1 as [|c0 s1'] eqn:Es1; [now left|]. rewrite <- Es1 in *. clear Es1 c0 s1'.
  destruct (eat_digits s1) as [ip s2] eqn:Ed. destruct (eat_digits_spec _ _ _ Ed) as (-> & Fi & Ni).
  set (no_int := match ip with [] => true | _ => false end).
  assert (Hno : no_int = false -> ip <> []) by (destruct ip; [discriminate|congruence]).
  assert (Plain : no_int = false -> exists t l r, s = t ++ r /\ literal_text t l /\
     (stops r \/ (l_exp l <> 0 /\ no_digit r) \/ exponent_ok l) /\
     inl (Decimal (sgn_of n) ip [] 0, s2) = (if Z.abs (l_exp l) <? 1073741823 then inl (dec_of l, r) else inr POverflow)).
  { intro H. exists (st ++ ip ++ []), (Literal n ip [] 0), s2. split; [rewrite app_nil_r, <- app_assoc; exact Es|].
    split; [constructor; [exact S|constructor; auto|constructor]|]. split; [right; right; unfold exponent_ok; cbn; lia|reflexivity]. }
  destruct s2 as [|b q].
  - destruct no_int; [now left|]. right. now apply Plain.
  - destruct (is_e b) eqn:Eb.
    + destruct no_int eqn:Hn; [now left|]. specialize (Hno eq_refl).
      destruct (extract_exponent_split q) as [X|(st' & n' & ds & r & -> & S' & Nd & Fd & Nr)]; [left; now rewrite X|].
      right. pose proof (extract_exponent_app st' n' ds r S' Nd Fd Nr) as X. cbv zeta in X. rewrite X.
      set (e := if n' then - number_of ds else number_of ds) in *.
      exists (st ++ ip ++ b :: st' ++ ds), (Literal n ip [] e), r.
      split; [rewrite Es; rewrite <- !app_assoc; cbn; now rewrite <- !app_assoc|].
      split; [constructor; [exact S|constructor; auto|constructor; auto; now apply is_e_iff]|].
      split; [|cbn [l_exp]; destruct (Z.abs e <? 1073741823); reflexivity].
      destruct (Z.eq_dec e 0) as [Z0|Z0]; [right; right; unfold exponent_ok; cbn [l_exp]; rewrite Z0; cbn; lia|].
      right; left. split; [exact Z0|exact Nr].
    + change ch_dot with 46. destruct (Z.eqb_spec b 46) as [->|Nb].
      * destruct (eat_digits q) as [fp s3] eqn:Ef. destruct (eat_digits_spec _ _ _ Ef) as (-> & Ff & Nf).
        destruct (no_int && match fp with [] => true | _ => false end) eqn:Hb; [now left|].
        assert (Nip : ip ++ fp <> []). { unfold no_int in Hb. destruct ip; [destruct fp; [discriminate|discriminate]|discriminate]. }
        assert (Hpl : exists t l r, s = t ++ r /\ literal_text t l /\
           (stops r \/ (l_exp l <> 0 /\ no_digit r) \/ exponent_ok l) /\
           inl (Decimal (sgn_of n) ip fp 0, s3) = (if Z.abs (l_exp l) <? 1073741823 then inl (dec_of l, r) else inr POverflow)).
        { exists (st ++ (ip ++ 46 :: fp) ++ []), (Literal n ip fp 0), s3.
          split; [rewrite Es, app_nil_r, <- !app_assoc; reflexivity|].
          split; [constructor; [exact S|constructor; auto|constructor]|]. split; [right; right; unfold exponent_ok; cbn; lia|reflexivity]. }
        destruct s3 as [|b' q']; [right; exact Hpl|]. destruct (is_e b') eqn:Eb'; [|right; exact Hpl].
        destruct (extract_exponent_split q') as [X|(st' & n' & ds & r & -> & S' & Nd & Fd & Nr)]; [left; now rewrite X|].
        right. pose proof (extract_exponent_app st' n' ds r S' Nd Fd Nr) as X. cbv zeta in X. rewrite X.
        set (e := if n' then - number_of ds else number_of ds) in *.
        exists (st ++ (ip ++ 46 :: fp) ++ b' :: st' ++ ds), (Literal n ip fp e), r.
        split; [rewrite Es; rewrite <- !app_assoc; cbn [app]; rewrite <- ?app_assoc; cbn [app]; rewrite <- ?app_assoc; reflexivity|].
        split; [constructor; [exact S|constructor; auto|constructor; auto; now apply is_e_iff]|].
        split; [|cbn [l_exp]; destruct (Z.abs e <? 1073741823); reflexivity].
        destruct (Z.eq_dec e 0) as [Z0|Z0]; [right; right; unfold exponent_ok; cbn [l_exp]; rewrite Z0; cbn; lia|].
        right; left. split; [exact Z0|exact Nr].
      * destruct no_int; [now left|]. right. now apply Plain.
Qed.
