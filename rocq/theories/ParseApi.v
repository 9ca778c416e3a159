(** * ParseApi: from_str against the grammar. *)
From Coq Require Import ZArith QArith Qabs Qpower List Bool Lia Lqa.
From Verif Require Import Base Var Binary Format Parse Spec SpecText QDec Digits Arith Strip Codec Make Text ParseText ParseVal.
Import ListNotations.
Open Scope Z_scope.

Lemma lower_eq a k : 97 <= k <= 122 -> (lower a = k <-> a = k \/ a = k - 32).
Proof.
  intro H. unfold lower. destruct (Z.leb_spec 65 a); destruct (Z.leb_spec a 90); cbn [andb]; lia.
Qed.

Lemma nan_app t r : nan_text t -> extract_nan (t ++ r) = (true, r).
Proof.
  intros (a & b & d & -> & A & B & D). cbn [app extract_nan].
  rewrite (proj2 (Z.eqb_eq (lower a) 110)) by (apply (lower_eq a 110); lia).
  rewrite (proj2 (Z.eqb_eq (lower b) 97)) by (apply (lower_eq b 97); lia).
  now rewrite (proj2 (Z.eqb_eq (lower d) 110)) by (apply (lower_eq d 110); lia).
Qed.

Lemma nan_split s : (extract_nan s = (false, s)) \/ exists t r, s = t ++ r /\ nan_text t /\ extract_nan s = (true, r).
Proof.
  destruct s as [|a [|b [|d r]]]; try (left; reflexivity). unfold extract_nan at 1.
  destruct (Z.eqb_spec (lower a) 110) as [A|A]; [|now left]. destruct (Z.eqb_spec (lower b) 97) as [B|B]; [|now left].
  destruct (Z.eqb_spec (lower d) 110) as [D|D]; [|now left]. right. exists [a; b; d], r. split; [reflexivity|].
  assert (N : nan_text [a; b; d]).
  { exists a, b, d. split; [reflexivity|]. apply (lower_eq a 110) in A; [|lia]. apply (lower_eq b 97) in B; [|lia].
    apply (lower_eq d 110) in D; [|lia]. lia. }
  split; [exact N|]. exact (nan_app [a; b; d] r N).
Qed.

(** First character of a literal. *)
Lemma literal_head t l : literal_text t l -> exists b q, t = b :: q /\ (digit_char b \/ b = 43 \/ b = 45 \/ b = 46).
Proof.
  intro L. destruct L as [sg m ex n ip fp e S M X]. destruct S.
  - destruct M as [ip N F|ip fp N F1 F2].
    + destruct ip as [|b ip]; [congruence|]. exists b. eexists. split; [reflexivity|]. left. exact (Forall_inv F).
    + destruct ip as [|b ip]; (do 2 eexists; split; [reflexivity|]); [auto|]. left. exact (Forall_inv F1).
  - do 2 eexists. split; [reflexivity|]. auto.
  - do 2 eexists. split; [reflexivity|]. auto.
Qed.

Lemma literal_not_nan t l r : literal_text t l -> extract_nan (t ++ r) = (false, t ++ r).
Proof.
  intro L. destruct (literal_head t l L) as (b & q & -> & H). destruct (nan_split ((b :: q) ++ r)) as [N|(t' & r' & E & N & _)]; [exact N|].
  exfalso. destruct N as (x & y & z & -> & A & _). injection E as -> _. unfold digit_char in H. lia.
Qed.

Lemma literal_no_space t l r : literal_text t l -> forall b q, t ++ r = b :: q -> ~ space_char b.
Proof.
  intros L b q E. destruct (literal_head t l L) as (b' & q' & -> & H). injection E as <- _.
  unfold space_char, digit_char in *. cbn. lia.
Qed.

Lemma from_str_blank c s : blank s -> from_str c s = Ret (inr PEmpty).
Proof.
  intro B. unfold from_str. pose proof (eat_spaces_app s [] B ltac:(discriminate)) as E. rewrite app_nil_r in E. now rewrite E.
Qed.

Lemma from_str_nan c s t : spaced s t -> nan_text t -> from_str c s = Ret (inl (nan_layout (be_varlen c))).
Proof.
  intros (pre & post & -> & B1 & B2) N. unfold from_str. rewrite eat_spaces_app; [|exact B1|].
  2:{ intros b q E. destruct N as (x & y & z & -> & A & _). injection E as <- _. unfold space_char. cbn. lia. }
  assert (Hne : forall (A : Type) (x y : A), (match t ++ post with [] => x | _ => y end) = y).
  { destruct N as (a & b & d & -> & _). reflexivity. }
  rewrite Hne. rewrite (nan_app t post N). cbv iota. rewrite (proj2 (blank_iff post) B2). rewrite nan_buf_spec. reflexivity.
Qed.

Lemma sgn_of_ok n : sgn_of n <> SNaN. Proof. destruct n; discriminate. Qed.

Lemma literal_mult l : mult (literal_value l) (literal_scale l).
Proof.
  unfold literal_value, literal_scale. set (N := number_of _).
  apply (mult_comp (dec ((if l_neg l then -1 else 1) * N) (l_exp l - len (l_frac l)))).
  - unfold dec. rewrite inject_Z_mult. destruct (l_neg l); reflexivity.
  - apply mult_dec. lia.
Qed.

Lemma weight_iff w x : 4 * w < x <= 4 * (w + 1) -> (w <= 32767 <-> x <= 131072).
Proof. lia. Qed.

Lemma exponent_ok_dec l : {exponent_ok l} + {~ exponent_ok l}.
Proof. unfold exponent_ok. destruct (Z_lt_dec (Z.abs (l_exp l)) 1073741823); auto. Qed.

Lemma in_range_dec l : {in_range l} + {~ in_range l}.
Proof.
  unfold in_range. destruct (exponent_ok_dec l); [|right; tauto].
  destruct (Z_le_dec (len (l_int l) + l_exp l) 131072); [|right; tauto].
  destruct (Z_le_dec (len (l_frac l) - l_exp l) 16383); [left; tauto|right; tauto].
Qed.

Lemma from_str_step c pre t r l : blank pre -> literal_text t l -> stops r \/ (l_exp l <> 0 /\ no_digit r) ->
  from_str c (pre ++ t ++ r) = 
    (x <- parse_str c (t ++ r) ;;
     match x with
     | inr e => Ret (inr e)
     | inl (n, s) =>
         if existsb (fun b => negb (is_space b)) s then Ret (inr PInvalid)
         else o <- make_result c n ;; match o with Some b => Ret (inl b) | None => Ret (inr POverflow) end
     end).
Proof.
  intros B L St. unfold from_str. rewrite eat_spaces_app; [|exact B|exact (literal_no_space t l r L)].
  assert (Hne : forall (A : Type) (x y : A), (match t ++ r with [] => x | _ => y end) = y).
  { destruct (literal_head t l L) as (b & q & -> & _). reflexivity. }
  rewrite Hne. rewrite (literal_not_nan t l r L). reflexivity.
Qed.

Lemma from_str_early c pre t r l : blank pre -> literal_text t l -> ~ exponent_ok l -> no_digit r ->
  from_str c (pre ++ t ++ r) = Ret (inr POverflow).
Proof.
  intros B L X N. assert (X0 : l_exp l <> 0) by (intro E; apply X; unfold exponent_ok; rewrite E; cbn; lia).
  rewrite (from_str_step c pre t r l B L); [|auto]. unfold parse_str.
  rewrite (parse_decimal_app t l r L) by auto.
  replace (Z.abs (l_exp l) <? 1073741823) with false; [reflexivity|]. symmetry. apply Z.ltb_ge. unfold exponent_ok in X. lia.
Qed.

Lemma from_str_literal c pre t post l : blank pre -> literal_text t l -> blank post ->
  len (l_int l) + len (l_frac l) < 2 ^ 30 - 8 \/ in_range l ->
  (in_range l -> exists x, from_str c (pre ++ t ++ post) = Ret (inl x) /\
     stores (be_varlen c) x (literal_value l) (literal_scale l)) /\
  (~ in_range l -> from_str c (pre ++ t ++ post) = Ret (inr POverflow)).
Proof.
  intros B L P Len. destruct (literal_chars t l L) as (Fi & Ff & _ & Ne).
  destruct (exponent_ok_dec l) as [X|X].
  2:{ split; [intros (Y & _); contradiction|]. intros _. apply from_str_early with l; auto. now apply stops_no_digit, blank_stops. }
  assert (Len' : len (l_int l) + len (l_frac l) < 2 ^ 30 - 8).
  { destruct Len as [Len|(_ & R1 & R2)]; [exact Len|]. change (2 ^ 30) with 1073741824. lia. }
  rewrite (from_str_step c pre t post l B L) by (left; now apply blank_stops).
  destruct (parse_str_spec c (t ++ post) l post) as (v & -> & D & S & Sc & V & W); auto.
  { rewrite (parse_decimal_app t l post L) by (left; now apply blank_stops).
    unfold exponent_ok in X. now rewrite (proj2 (Z.ltb_lt _ _) X). }
  cbn [bind]. rewrite (proj2 (blank_iff post) P).
  assert (N : sign v <> SNaN) by (rewrite S; apply sgn_of_ok).
  pose proof (weight_iff _ _ W) as WI. unfold literal_scale in *. split.
  - intros (_ & R1 & R2). destruct (make_result_spec c v (literal_value l) (literal_scale l)) as (o & -> & R3 & R4);
      [exact D|exact N|exact Sc|unfold literal_scale; lia|exact V|apply literal_mult| |left; apply WI; exact R1|].
    + pose proof (len_nonneg (l_int l)). pose proof (len_nonneg (l_frac l)). lia.
    + cbn [bind]. destruct (Qlt_le_dec (Qabs (literal_value l)) limit) as [Q|Q].
      * destruct (R3 Q) as (x & -> & St). exists x. split; [reflexivity|exact St].
      * exfalso. assert (Q' : (limit <= Qabs (vval v))%Q) by (rewrite V; exact Q).
        pose proof (above_limit_weight v D Q'). lia.
  - intro R. unfold make_result. rewrite (nan_ok c v N). cbn [bind]. rewrite dassert_ok by (apply Z.leb_le; lia). cbn [bind].
    change NUMERIC_WEIGHT_MAX with 32767. change NUMERIC_WEIGHT_MIN with (-32767). change NUMERIC_DSCALE_MAX with 16383.
    replace ((32767 <? weight v) || (weight v <? -32767) || (16383 <? dscale v)) with true; [reflexivity|]. symmetry.
    rewrite !orb_true_iff, !Z.ltb_lt. unfold in_range in R.
    destruct (Z_le_dec (len (l_int l) + l_exp l) 131072); [|lia].
    destruct (Z_le_dec (len (l_frac l) - l_exp l) 16383); [tauto|]. lia.
Qed.

(** Every string is one of these. *)
Lemma from_str_sound c s : len s < 2 ^ 30 - 8 ->
  blank s \/ (exists t, spaced s t /\ nan_text t) \/
  (exists pre t post l, s = pre ++ t ++ post /\ blank pre /\ blank post /\ literal_text t l) \/
  (exists pre t r l, s = pre ++ t ++ r /\ blank pre /\ no_digit r /\ literal_text t l /\ ~ exponent_ok l) \/
  from_str c s = Ret (inr PInvalid).
Proof.
  intro Len. destruct (eat_spaces_split s) as (pre & E & B & N). set (s1 := eat_whitespaces s) in *.
  destruct s1 as [|b0 q0] eqn:E1; [left; rewrite app_nil_r in E; now rewrite E|]. right.
  assert (Fs : from_str c s = let '(nan, s) := extract_nan s1 in
      if (nan : bool) then
        if existsb (fun b => negb (is_space b)) s then Ret (inr PInvalid)
        else b <- nan_buf c ;; Ret (inl b)
      else
        r <- parse_str c s ;;
        match r with
        | inr e => Ret (inr e)
        | inl (n, s) =>
            if existsb (fun b => negb (is_space b)) s then Ret (inr PInvalid)
            else
              o <- make_result c n ;;
              match o with
              | Some b => Ret (inl b)
              | None => Ret (inr POverflow)
              end
        end).
  { unfold from_str. fold s1. rewrite E1. reflexivity. }
  rewrite <- E1 in *. clear b0 q0 E1.
  destruct (nan_split s1) as [Hn|(t & r & Et & Hn & Hn')].
  - rewrite Hn in Fs. destruct (parse_decimal_split s1) as [Hd|(t & l & r & Et & L & Hr & Hd)].
    + right. right. right. rewrite Fs. unfold parse_str. rewrite Hd. reflexivity.
    + destruct (exponent_ok_dec l) as [X|X].
      * destruct (existsb (fun b => negb (is_space b)) r) eqn:Er.
        -- right. right. right. destruct (literal_chars t l L) as (Fi & Ff & Ll & Ne).
           destruct (parse_str_spec c s1 l r) as (v & Hv & _); auto.
           { rewrite Hd. unfold exponent_ok in X. now rewrite (proj2 (Z.ltb_lt _ _) X). }
           { rewrite E, Et, !len_app in Len. pose proof (len_nonneg pre). pose proof (len_nonneg r). lia. }
           rewrite Fs, Hv. cbn [bind]. now rewrite Er.
        -- right. left. exists pre, t, r, l. rewrite <- Et. split; [exact E|]. split; [exact B|]. split; [now apply blank_iff|exact L].
      * right. right. left. exists pre, t, r, l. rewrite <- Et. split; [exact E|]. split; [exact B|].
        split; [|split; [exact L|exact X]]. destruct Hr as [Hr|[[_ Hr]|Hr]]; [now apply stops_no_digit|exact Hr|contradiction].
  - destruct (existsb (fun b => negb (is_space b)) r) eqn:Er.
    + right. right. right. rewrite Fs, Hn', Er. reflexivity.
    + left. exists t. split; [|exact Hn]. exists pre, r. rewrite <- Et. split; [exact E|]. split; [exact B|now apply blank_iff].
Qed.

(** ** The statements of the properties *)

Lemma spaced_len s t : spaced s t -> len t <= len s.
Proof.
  intros (pre & post & -> & _). rewrite !len_app. pose proof (len_nonneg pre). pose proof (len_nonneg post). lia.
Qed.

Lemma parse_complete c s t l : spaced s t -> literal_text t l -> in_range l ->
  exists x, from_str c s = Ret (inl x) /\ stores (be_varlen c) x (literal_value l) (literal_scale l).
Proof.
  intros (pre & post & -> & B1 & B2) L R. now apply (from_str_literal c pre t post l B1 L B2 (or_intror R)).
Qed.

Lemma parse_literal_overflow c s t l : len s < 2 ^ 30 - 8 -> spaced s t -> literal_text t l -> ~ in_range l ->
  from_str c s = Ret (inr POverflow).
Proof.
  intros Len Sp L R. destruct (literal_chars t l L) as (_ & _ & Ll & _). pose proof (spaced_len s t Sp).
  destruct Sp as (pre & post & -> & B1 & B2).
  apply (from_str_literal c pre t post l B1 L B2); [left; lia|exact R].
Qed.

Definition early (s : list Z) : Prop :=
  exists pre t r l, s = pre ++ t ++ r /\ blank pre /\ no_digit r /\ literal_text t l /\ ~ exponent_ok l.

Lemma parse_sound c s x : len s < 2 ^ 30 - 8 -> from_str c s = Ret (inl x) ->
  exists t, spaced s t /\
    ((nan_text t /\ stores_nan (be_varlen c) x) \/
     exists l, literal_text t l /\ in_range l /\ stores (be_varlen c) x (literal_value l) (literal_scale l)).
Proof.
  intros Len E. destruct (from_str_sound c s Len) as [H|[(t & Sp & N)|[(pre & t & post & l & Es & B1 & B2 & L)|[(pre & t & r & l & -> & B & Nr & L & X)|H]]]].
  - rewrite (from_str_blank c s H) in E. discriminate.
  - exists t. split; [exact Sp|]. left. split; [exact N|]. rewrite (from_str_nan c s t Sp N) in E. injection E as <-. reflexivity.
  - assert (Sp : spaced s t) by (exists pre, post; auto). exists t. split; [exact Sp|].
    right. exists l. destruct (in_range_dec l) as [R|R].
    + destruct (parse_complete c s t l Sp L R) as (y & Ey & Sy). rewrite Ey in E. injection E as <-. auto.
    + rewrite (parse_literal_overflow c s t l Len Sp L R) in E. discriminate.
  - rewrite (from_str_early c pre t r l B L X Nr) in E. discriminate.
  - rewrite H in E. discriminate.
Qed.

Lemma parse_total c s : len s < 2 ^ 30 - 8 -> exists r, from_str c s = Ret r.
Proof.
  intros Len. destruct (from_str_sound c s Len) as [H|[(t & Sp & N)|[(pre & t & post & l & Es & B1 & B2 & L)|[(pre & t & r & l & -> & B & Nr & L & X)|H]]]].
  - eexists. now apply from_str_blank.
  - eexists. now apply (from_str_nan c s t).
  - assert (Sp : spaced s t) by (exists pre, post; auto). destruct (in_range_dec l) as [R|R].
    + destruct (parse_complete c s t l Sp L R) as (y & Ey & _). eauto.
    + eexists. exact (parse_literal_overflow c s t l Len Sp L R).
  - eexists. exact (from_str_early c pre t r l B L X Nr).
  - eauto.
Qed.

Lemma parse_profile s be : len s < 2 ^ 30 - 8 -> from_str (Cfg true be) s = from_str (Cfg false be) s.
Proof.
  intros Len. destruct (from_str_sound (Cfg true be) s Len) as [H|[(t & Sp & N)|[(pre & t & post & l & Es & B1 & B2 & L)|[(pre & t & r & l & -> & B & Nr & L & X)|H]]]].
  - now rewrite !from_str_blank.
  - rewrite !(from_str_nan _ s t) by assumption. reflexivity.
  - assert (Sp : spaced s t) by (exists pre, post; auto). destruct (in_range_dec l) as [R|R].
    + destruct (parse_complete (Cfg true be) s t l Sp L R) as (y & Ey & Y).
      destruct (parse_complete (Cfg false be) s t l Sp L R) as (z & Ez & Z). rewrite Ey, Ez.
      cbn [be_varlen] in *. now rewrite (stores_unique be y z _ _ Y Z).
    + now rewrite !(parse_literal_overflow _ s t l Len Sp L R).
  - now rewrite !(from_str_early _ pre t r l B L X Nr).
  - rewrite H. destruct (from_str_sound (Cfg false be) s Len) as [H'|[(t & Sp & N)|[(pre & t & post & l & Es & B1 & B2 & L)|[(pre & t & r & l & -> & B & Nr & L & X)|H']]]].
    + rewrite from_str_blank in H by assumption. discriminate.
    + rewrite (from_str_nan _ s t) in H by assumption. discriminate.
    + assert (Sp : spaced s t) by (exists pre, post; auto). destruct (in_range_dec l) as [R|R].
      * destruct (parse_complete (Cfg true be) s t l Sp L R) as (y & Ey & Y). rewrite Ey in H. discriminate.
      * rewrite !(parse_literal_overflow _ s t l Len Sp L R) in H. discriminate.
    + rewrite !(from_str_early _ pre t r l B L X Nr) in H. discriminate.
    + now rewrite H'.
Qed.

(** A non-blank, well-formed string is not blank. *)
Lemma spaced_not_blank s t b q : spaced s t -> t = b :: q -> ~ space_char b -> ~ blank s.
Proof.
  intros (pre & post & -> & _) -> N B. unfold blank in B. apply Forall_app in B. destruct B as [_ B].
  apply Forall_app in B. destruct B as [B _]. now apply N, (Forall_inv B).
Qed.

Lemma parse_empty_iff c s : len s < 2 ^ 30 - 8 -> (from_str c s = Ret (inr PEmpty) <-> blank s).
Proof.
  intro Len. split; [|apply from_str_blank]. intro E.
  destruct (from_str_sound c s Len) as [H|[(t & Sp & N)|[(pre & t & post & l & Es & B1 & B2 & L)|[(pre & t & r & l & -> & B & Nr & L & X)|H]]]].
  - exact H.
  - rewrite (from_str_nan c s t Sp N) in E. discriminate.
  - assert (Sp : spaced s t) by (exists pre, post; auto). destruct (in_range_dec l) as [R|R].
    + destruct (parse_complete c s t l Sp L R) as (y & Ey & _). rewrite Ey in E. discriminate.
    + rewrite (parse_literal_overflow c s t l Len Sp L R) in E. discriminate.
  - rewrite (from_str_early c pre t r l B L X Nr) in E. discriminate.
  - rewrite H in E. discriminate.
Qed.

Lemma parse_overflow_iff c s : len s < 2 ^ 30 - 8 ->
  (from_str c s = Ret (inr POverflow) <->
   (exists t l, spaced s t /\ literal_text t l /\ ~ in_range l) \/ early s).
Proof.
  intro Len. split.
  - intro E.
    destruct (from_str_sound c s Len) as [H|[(t & Sp & N)|[(pre & t & post & l & Es & B1 & B2 & L)|[H|H]]]].
    + rewrite (from_str_blank c s H) in E. discriminate.
    + rewrite (from_str_nan c s t Sp N) in E. discriminate.
    + assert (Sp : spaced s t) by (exists pre, post; auto). destruct (in_range_dec l) as [R|R].
      * destruct (parse_complete c s t l Sp L R) as (y & Ey & _). rewrite Ey in E. discriminate.
      * left. exists t, l. auto.
    + right. exact H.
    + rewrite H in E. discriminate.
  - intros [(t & l & Sp & L & R)|(pre & t & r & l & -> & B & Nr & L & X)].
    + exact (parse_literal_overflow c s t l Len Sp L R).
    + exact (from_str_early c pre t r l B L X Nr).
Qed.

Lemma parse_invalid_iff c s : len s < 2 ^ 30 - 8 ->
  (from_str c s = Ret (inr PInvalid) <->
   ~ blank s /\ ~ (exists t, spaced s t /\ (nan_text t \/ exists l, literal_text t l)) /\ ~ early s).
Proof.
  intro Len. split.
  - intro E. split; [|split].
    + intro H. rewrite (from_str_blank c s H) in E. discriminate.
    + intros (t & Sp & [N|(l & L)]).
      * rewrite (from_str_nan c s t Sp N) in E. discriminate.
      * destruct (in_range_dec l) as [R|R].
        -- destruct (parse_complete c s t l Sp L R) as (y & Ey & _). rewrite Ey in E. discriminate.
        -- rewrite (parse_literal_overflow c s t l Len Sp L R) in E. discriminate.
    + intros (pre & t & r & l & -> & B & Nr & L & X). rewrite (from_str_early c pre t r l B L X Nr) in E. discriminate.
  - intros (H1 & H2 & H3).
    destruct (from_str_sound c s Len) as [H|[(t & Sp & N)|[(pre & t & post & l & Es & B1 & B2 & L)|[H|H]]]].
    + contradiction.
    + elim H2. eauto.
    + elim H2. exists t. split; [exists pre, post; auto|eauto].
    + contradiction.
    + exact H.
Qed.

(** Overflow is genuine when the integral part has no superfluous leading zeros. *)
Lemma number_lead_bound b q fp : Forall digit_char (b :: q) -> Forall digit_char fp -> b <> 48 ->
  10 ^ (len (b :: q) - 1 + len fp) <= number_of ((b :: q) ++ fp).
Proof.
  intros F1 F2 N. rewrite len_cons. replace (1 + len q - 1 + len fp) with (len (q ++ fp)) by (rewrite len_app; lia).
  cbn [app]. apply number_of_lead; [|exact N]. change (b :: q ++ fp) with ((b :: q) ++ fp). apply Forall_app. auto.
Qed.

Lemma literal_value_abs l : (Qabs (literal_value l) == dec (number_of (l_int l ++ l_frac l)) (l_exp l - len (l_frac l)))%Q \/
  number_of (l_int l ++ l_frac l) < 0.
Proof.
  destruct (Z_lt_dec (number_of (l_int l ++ l_frac l)) 0) as [N|N]; [now right|left].
  assert (E : (literal_value l == dec ((if l_neg l then -1 else 1) * number_of (l_int l ++ l_frac l)) (l_exp l - len (l_frac l)))%Q).
  { unfold literal_value, dec. rewrite inject_Z_mult. destruct (l_neg l); reflexivity. }
  rewrite E, Qabs_dec. destruct (l_neg l).
  - replace (Z.abs (-1 * number_of (l_int l ++ l_frac l))) with (number_of (l_int l ++ l_frac l)) by lia. reflexivity.
  - replace (Z.abs (1 * number_of (l_int l ++ l_frac l))) with (number_of (l_int l ++ l_frac l)) by lia. reflexivity.
Qed.

Lemma genuine_overflow c s t l b q : len s < 2 ^ 30 - 8 -> spaced s t -> literal_text t l -> exponent_ok l ->
  l_int l = b :: q -> b <> 48 ->
  (from_str c s = Ret (inr POverflow) <-> ((limit <= Qabs (literal_value l))%Q \/ 16383 < literal_scale l)).
Proof.
  intros Len Sp L X Ei Nb. destruct (literal_chars t l L) as (Fi & Ff & _ & _).
  assert (Fa : Forall digit_char (l_int l ++ l_frac l)) by (apply Forall_app; auto).
  pose proof (number_of_bound _ Fa) as Bn.
  destruct (literal_value_abs l) as [A|A]; [|lia].
  pose proof (number_lead_bound b q (l_frac l) ltac:(now rewrite <- Ei) Ff Nb) as Lb. rewrite <- Ei in Lb.
  pose proof (len_nonneg (l_frac l)) as Pf. pose proof (len_nonneg q) as Pq.
  assert (Li : len (l_int l) = 1 + len q) by (rewrite Ei; apply len_cons).
  set (N := number_of (l_int l ++ l_frac l)) in *. set (lf := len (l_frac l)) in *. set (li := len (l_int l)) in *.
  assert (B1 : (p10 (li - 1 + l_exp l) <= Qabs (literal_value l))%Q).
  { rewrite A. rewrite <- dec_1. replace (li - 1 + l_exp l) with (l_exp l - lf + (li - 1 + lf)) by lia.
    rewrite <- dec_shift by lia. apply dec_le_iff. lia. }
  assert (B2 : (Qabs (literal_value l) < p10 (li + l_exp l))%Q).
  { rewrite A. rewrite <- dec_1. replace (li + l_exp l) with (l_exp l - lf + (li + lf)) by lia.
    rewrite <- dec_shift by lia. apply dec_lt_iff. rewrite len_app in Bn. fold lf li in Bn. lia. }
  split.
  - intro E. destruct (in_range_dec l) as [R|R].
    + destruct (parse_complete c s t l Sp L R) as (y & Ey & _). rewrite Ey in E. discriminate.
    + unfold in_range in R. fold lf li in R. unfold literal_scale. fold lf.
      destruct (Z_le_dec (lf - l_exp l) 16383); [|right; lia]. left.
      destruct (Z_le_dec (li + l_exp l) 131072); [tauto|].
      rewrite limit_p10. apply Qle_trans with (p10 (li - 1 + l_exp l)); [apply p10_le; lia|exact B1].
  - intros [H|H]; apply (parse_literal_overflow c s t l Len Sp L).
    + intros (_ & R1 & _). fold li in R1. pose proof (Qle_lt_trans _ _ _ H B2) as H'. rewrite limit_p10 in H'.
      apply (proj1 (p10_lt_iff _ _)) in H'. lia.
    + intros (_ & _ & R2). unfold literal_scale in H. fold lf in R2, H. lia.
Qed.
