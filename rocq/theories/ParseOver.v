(** * ParseOver: exactly when a literal is reported as an overflow (P_Parse.v, C30). *)
From Coq Require Import ZArith QArith Qabs List Bool Lia.
From Verif Require Import Base Var Binary Format Parse Spec SpecText QDec Digits Arith Strip Codec Make Text ParseText ParseVal ParseApi.
Import ListNotations.
Open Scope Z_scope.

Lemma literal_first t l : literal_text t l -> exists b r, l_int l ++ l_frac l = b :: r /\ digit_char b /\ Forall digit_char r.
Proof.
  intro L. destruct (literal_chars t l L) as (Fi & Ff & _ & _).
  assert (Fa : Forall digit_char (l_int l ++ l_frac l)) by (apply Forall_app; auto).
  destruct L as [sg m ex n ip fp e _ M _]. cbn [l_int l_frac] in *.
  assert (N : ip ++ fp <> []) by (destruct M as [ip N _|ip fp N _ _]; [now rewrite app_nil_r|exact N]).
  destruct (ip ++ fp) as [|b r]; [now contradict N|]. exists b, r. inversion Fa; subst. now split.
Qed.

Lemma overflow_exact c s t l : len s < 2 ^ 30 - 8 -> spaced s t -> literal_text t l ->
  (from_str c s = Ret (inr POverflow) <->
     ((limit <= Qabs (literal_value l))%Q \/ 16383 < literal_scale l \/ 131072 < len (l_int l) + l_exp l)) /\
  ((Qabs (literal_value l) < limit)%Q -> literal_scale l <= 16383 -> 131072 < len (l_int l) + l_exp l ->
     exists r, l_int l ++ l_frac l = 48 :: r).
Proof.
  intros Len Sp L. destruct (literal_chars t l L) as (Fi & Ff & _ & _).
  assert (Fa : Forall digit_char (l_int l ++ l_frac l)) by (apply Forall_app; auto).
  pose proof (number_of_bound _ Fa) as Bn.
  destruct (literal_value_abs l) as [A|A]; [|lia].
  pose proof (len_nonneg (l_frac l)) as Pf. pose proof (len_nonneg (l_int l)) as Pi.
  pose proof (spaced_len s t Sp) as SL.
  rewrite len_app in Bn.
  assert (B2 : (Qabs (literal_value l) < p10 (len (l_int l) + l_exp l))%Q).
  { rewrite A. rewrite <- dec_1. replace (len (l_int l) + l_exp l) with (l_exp l - len (l_frac l) + (len (l_int l) + len (l_frac l))) by lia.
    rewrite <- dec_shift by lia. apply dec_lt_iff. lia. }
  clear Bn.
  split; [split|].
  - intro E. destruct (in_range_dec l) as [R|R].
    + destruct (parse_complete c s t l Sp L R) as (y & Ey & _). rewrite Ey in E. discriminate.
    + unfold in_range, exponent_ok in R. unfold literal_scale.
      destruct (Z_lt_dec 131072 (len (l_int l) + l_exp l)) as [G|G]; [right; now right|].
      right. left. lia.
  - intro H. apply (parse_literal_overflow c s t l Len Sp L). intros (_ & R1 & R2). destruct H as [H|[H|H]].
    + pose proof (Qle_lt_trans _ _ _ H B2) as H'. rewrite limit_p10 in H'. apply (proj1 (p10_lt_iff _ _)) in H'. lia.
    + unfold literal_scale in H. lia.
    + lia.
  - intros V S H. destruct (literal_first t l L) as (b & r & E & Db & Fr). exists r. rewrite E. f_equal.
    destruct (Z.eq_dec b 48) as [Z0|Z0]; [exact Z0|exfalso].
    pose proof (number_lead_bound b r [] ltac:(now constructor) (Forall_nil _) Z0) as Lb.
    rewrite app_nil_r, <- E in Lb.
    assert (Lr : len (l_int l ++ l_frac l) = 1 + len r) by (rewrite E; apply len_cons). rewrite len_app in Lr.
    apply (Qlt_not_le _ _ V). rewrite limit_p10, A. apply Qle_trans with (p10 (len (l_int l) - 1 + l_exp l)); [apply p10_le; lia|].
    rewrite <- dec_1. replace (len (l_int l) - 1 + l_exp l) with (l_exp l - len (l_frac l) + (len (l_int l) - 1 + len (l_frac l))) by lia.
    assert (0 <= len r) by apply len_nonneg.
    rewrite <- dec_shift by lia. apply dec_le_iff. change (len []) with 0 in Lb.
    replace (len (l_int l) - 1 + len (l_frac l)) with (len r) by lia. rewrite Z.mul_1_l. rewrite len_app in Lb. replace (len (l_int l) + len (l_frac l) - 1 + 0) with (len r) in Lb by lia. exact Lb.
Qed.
