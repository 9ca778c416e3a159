(** * Text: lemmas on decimal texts. *)
From Coq Require Import ZArith QArith Qabs Qpower List Bool Lia.
From Verif Require Import Base Var Format Parse Spec SpecText QDec Digits Arith.
Import ListNotations.
Open Scope Z_scope.

Lemma len_lenz l : len l = lenz l.
Proof. reflexivity. Qed.

Lemma len_nonneg l : 0 <= len l.
Proof. unfold len. lia. Qed.

Lemma len_app a b : len (a ++ b) = len a + len b.
Proof. unfold len. rewrite app_length. lia. Qed.

Lemma len_cons a b : len (a :: b) = 1 + len b.
Proof. unfold len. cbn [length]. lia. Qed.

(** Decimal value of plain digits (0..9). *)
Fixpoint tv (ds : list Z) : Z :=
  match ds with [] => 0 | d :: t => d * 10 ^ lenz t + tv t end.

Lemma tv_app a b : tv (a ++ b) = tv a * 10 ^ lenz b + tv b.
Proof.
  induction a as [|d a IH]; [reflexivity|]. cbn [app tv]. rewrite IH, lenz_app.
  rewrite Z.pow_add_r by apply lenz_nonneg. ring.
Qed.

Lemma tv_repeat0 k : tv (repeat 0 k) = 0.
Proof. induction k as [|k IH]; [reflexivity|]. cbn [repeat tv]. rewrite IH. lia. Qed.

Lemma fold_tv l : forall a, fold_left (fun a b => a * 10 + (b - 48)) l a
  = a * 10 ^ lenz l + tv (map (fun i => i - ch_0) l).
Proof.
  induction l as [|b l IH]; intro a; cbn [fold_left map tv].
  - rewrite lenz_nil, Z.pow_0_r. lia.
  - rewrite IH, lenz_cons, lenz_map, Z.pow_add_r by (pose proof (lenz_nonneg l); lia).
    change (10 ^ 1) with 10. change ch_0 with 48. ring.
Qed.

Lemma number_of_tv l : number_of l = tv (map (fun i => i - ch_0) l).
Proof. unfold number_of. rewrite fold_tv. lia. Qed.

Lemma number_of_nil : number_of [] = 0.
Proof. reflexivity. Qed.

Lemma number_of_app a b : number_of (a ++ b) = number_of a * 10 ^ len b + number_of b.
Proof. rewrite !number_of_tv, map_app, tv_app, lenz_map. reflexivity. Qed.

Lemma number_of_cons b l : number_of (b :: l) = (b - 48) * 10 ^ len l + number_of l.
Proof. rewrite !number_of_tv. cbn [map tv]. rewrite lenz_map. reflexivity. Qed.

Lemma number_of_1 b : number_of [b] = b - 48.
Proof. unfold number_of. cbn [fold_left]. lia. Qed.

Lemma number_of_bound l : Forall digit_char l -> 0 <= number_of l < 10 ^ len l.
Proof.
  induction 1 as [|b l H F IH]; [rewrite number_of_nil; cbn; lia|].
  rewrite number_of_cons, len_cons. rewrite Z.pow_add_r by (pose proof (len_nonneg l); lia).
  unfold digit_char in H. change (10 ^ 1) with 10. nia.
Qed.

Lemma number_of_lead b l : Forall digit_char (b :: l) -> b <> 48 -> 10 ^ len l <= number_of (b :: l).
Proof.
  intros F N. pose proof (number_of_bound l (Forall_inv_tail F)). pose proof (Forall_inv F) as H0. unfold digit_char in H0.
  rewrite number_of_cons. nia.
Qed.

Lemma number_of_zeros k l : number_of (repeat 48 k ++ l) = number_of l.
Proof.
  induction k as [|k IH]; [reflexivity|]. cbn [repeat app]. rewrite number_of_cons, IH. lia.
Qed.

Lemma number_of_zeros0 k : number_of (repeat 48 k) = 0.
Proof. rewrite <- (app_nil_r (repeat 48 k)), number_of_zeros. reflexivity. Qed.

(** Same length, same number: same digits. *)
Lemma number_of_inj a b : Forall digit_char a -> Forall digit_char b -> len a = len b ->
  number_of a = number_of b -> a = b.
Proof.
  intros Fa. revert b. induction Fa as [|x a Hx Fa IH]; intros [|y b] Fb L E; try reflexivity.
  - rewrite len_cons in L. pose proof (len_nonneg b). change (len []) with 0 in L. lia.
  - rewrite len_cons in L. pose proof (len_nonneg a). change (len []) with 0 in L. lia.
  - rewrite !len_cons in L. rewrite !number_of_cons in E. assert (L' : len a = len b) by lia. rewrite L' in E.
    pose proof (number_of_bound a Fa) as Ba. rewrite L' in Ba.
    pose proof (number_of_bound b (Forall_inv_tail Fb)) as Bb. unfold digit_char in Hx.
    pose proof (Forall_inv Fb) as Hy. unfold digit_char in Hy. cbn beta in Hy.
    assert (x = y) by nia. subst y. f_equal. apply IH; [exact (Forall_inv_tail Fb)|exact L'|lia].
Qed.

Lemma digit_char_iff b : is_digit b = true <-> digit_char b.
Proof. unfold is_digit, digit_char. rewrite andb_true_iff, !Z.leb_le. tauto. Qed.

Lemma digit_char_false b : is_digit b = false <-> ~ digit_char b.
Proof. rewrite <- digit_char_iff. destruct (is_digit b); split; congruence. Qed.

Lemma space_char_iff b : is_space b = true <-> space_char b.
Proof.
  unfold is_space, space_char. rewrite !orb_true_iff, !Z.eqb_eq. cbn [In].
  split; intro H; repeat (destruct H as [H|H]; [auto 10|]); auto 10; try (exfalso; exact H).
Qed.

Lemma space_char_false b : is_space b = false <-> ~ space_char b.
Proof. rewrite <- space_char_iff. destruct (is_space b); split; congruence. Qed.

Lemma blank_iff s : existsb (fun b => negb (is_space b)) s = false <-> blank s.
Proof.
  unfold blank. induction s as [|b s IH]; cbn [existsb].
  - split; [constructor|reflexivity].
  - rewrite orb_false_iff, IH, negb_false_iff, space_char_iff. split.
    + intros [A B]. now constructor.
    + intro F. split; [exact (Forall_inv F)|exact (Forall_inv_tail F)].
Qed.

Lemma eat_spaces_split s : exists pre, s = pre ++ eat_whitespaces s /\ blank pre /\
  (forall b t, eat_whitespaces s = b :: t -> ~ space_char b).
Proof.
  induction s as [|b s (pre & E & B & N)]; cbn [eat_whitespaces].
  - exists []. split; [reflexivity|]. split; [constructor|discriminate].
  - destruct (is_space b) eqn:S.
    + exists (b :: pre). split; [cbn; now rewrite <- E|]. split; [|exact N].
      constructor; [now apply space_char_iff|exact B].
    + exists []. split; [reflexivity|]. split; [constructor|]. intros b' t [= <- _]. now apply space_char_false.
Qed.

Lemma eat_spaces_app pre s : blank pre -> (forall b t, s = b :: t -> ~ space_char b) ->
  eat_whitespaces (pre ++ s) = s.
Proof.
  intros B N. induction B as [|b pre H B IH]; cbn [app eat_whitespaces].
  - destruct s as [|b t]; [reflexivity|]. cbn [eat_whitespaces].
    rewrite (proj2 (space_char_false b)); [reflexivity|]. now apply (N b t).
  - apply space_char_iff in H. now rewrite H.
Qed.

Lemma eat_digits_spec s d r : eat_digits s = (d, r) ->
  s = d ++ r /\ Forall digit_char d /\ (forall b t, r = b :: t -> ~ digit_char b).
Proof.
  revert d r. induction s as [|b s IH]; cbn [eat_digits]; intros d r E.
  - injection E as <- <-. split; [reflexivity|]. split; [constructor|discriminate].
  - destruct (is_digit b) eqn:D.
    + destruct (eat_digits s) as [d' r'] eqn:E'. injection E as <- <-.
      destruct (IH _ _ eq_refl) as (-> & F & N). split; [reflexivity|]. split; [|exact N].
      constructor; [now apply digit_char_iff|exact F].
    + injection E as <- <-. split; [reflexivity|]. split; [constructor|].
      intros b' t [= <- _]. now apply digit_char_false.
Qed.

Lemma eat_digits_app d r : Forall digit_char d -> (forall b t, r = b :: t -> ~ digit_char b) ->
  eat_digits (d ++ r) = (d, r).
Proof.
  intros F N. induction F as [|b d H F IH]; cbn [app eat_digits].
  - destruct r as [|b t]; [reflexivity|]. cbn [eat_digits].
    rewrite (proj2 (digit_char_false b)); [reflexivity|]. now apply (N b t).
  - apply digit_char_iff in H. rewrite H, IH. reflexivity.
Qed.
