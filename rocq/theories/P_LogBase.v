(** * Property theorems: accuracy of logarithms to a base (C75, C76, C77), and all their outcomes (C85).

    These use the standard library's real numbers, and so rest on its axioms. [m] stands for the
    platform's f64::log10 and f64::ln, right to 10^-9. [fuel] bounds the loops, which the code leaves
    unbounded ([Diverge] is a run that needs more). *)
From Coq Require Import Reals Qreals ZArith QArith Qabs List Lia Lra.
From Verif Require Import Base Var Binary Num Flt Transc Spec SpecApi SpecLn QDec Digits Codec SqrtLoop Samples LnSig LogFin P_Ln.
Import ListNotations.
Open Scope R_scope.

(** C75: the logarithm to a base, the number not within 10^-990 of one (but it may be one) and the base not
    within 10^-1980, does not end, panics on an arithmetic overflow in a debug build, or is within 505/1000 of a unit in the last
    place of the exact quotient of logarithms, at a scale from the larger of the operands' (capped at
    1000) to 1000 *)
Theorem C75_log_accurate : forall c m fuel x q s b p sb, logs_near (f_log10 m) (f_ln m) ->
  stores (be_varlen c) x q s -> stores (be_varlen c) b p sb -> (0 < q)%Q -> (0 < p)%Q ->
  ((q == 1)%Q \/ (ten ^ (-990) <= Qabs (q - 1))%Q) -> (ten ^ (-1980) <= Qabs (p - 1))%Q ->
  num_log c m fuel x b = Diverge \/
  (num_log c m fuel x b = Panic WArith /\ dbg c = true) \/
  (exists y r s', num_log c m fuel x b = Ret y /\ stores (be_varlen c) y r s' /\ (Z.min 1000 (Z.max s sb) <= s' <= 1000)%Z /\
     Rabs (Q2R r - ln (Q2R q) / ln (Q2R p)) <= 505 / 1000 * powerRZ 10 (- s')).
Proof.
  intros c m fuel x q s b p sb N H H' Q P Hq Hp. destruct (log_api c m fuel x q s b p sb N H H' Q P Hq Hp) as [K|[K|(y & r & s' & E & S & B & A & _)]];
    [now left|right; now left|right; right]. now exists y, r, s'.
Qed.
Print Assumptions C75_log_accurate.

Theorem C75_log2_log10_accurate : forall c m fuel x q s, logs_near (f_log10 m) (f_ln m) ->
  stores (be_varlen c) x q s -> (0 < q)%Q -> ((q == 1)%Q \/ (ten ^ (-990) <= Qabs (q - 1))%Q) ->
  (num_log2 c m fuel x = Diverge \/
   (num_log2 c m fuel x = Panic WArith /\ dbg c = true) \/
   (exists y r s', num_log2 c m fuel x = Ret y /\ stores (be_varlen c) y r s' /\ (Z.min 1000 s <= s' <= 1000)%Z /\
     Rabs (Q2R r - ln (Q2R q) / ln 2) <= 505 / 1000 * powerRZ 10 (- s'))) /\
  (num_log10 c m fuel x = Diverge \/
   (num_log10 c m fuel x = Panic WArith /\ dbg c = true) \/
   (exists y r s', num_log10 c m fuel x = Ret y /\ stores (be_varlen c) y r s' /\ (Z.min 1000 s <= s' <= 1000)%Z /\
     Rabs (Q2R r - ln (Q2R q) / ln 10) <= 505 / 1000 * powerRZ 10 (- s'))).
Proof.
  intros c m fuel x q s N H Q Hq. destruct (log_const_api c m fuel x q s N H Q Hq) as [H2 H10].
  replace (ln 2) with (ln (Q2R 2)) by (f_equal; unfold Q2R; cbn; lra). replace (ln 10) with (ln (Q2R 10)) by (f_equal; unfold Q2R; cbn; lra).
  split; [destruct H2 as [K|[K|(y & r & s' & E & S & B & A & _)]]|destruct H10 as [K|[K|(y & r & s' & E & S & B & A & _)]]];
    first [now left|right; now left|right; right; now exists y, r, s'].
Qed.
Print Assumptions C75_log2_log10_accurate.

(** C76: and the result has at least thirteen significant digits, or a thousand decimals *)
Theorem C76_log_digits : forall c m fuel x q s b p sb y, logs_near (f_log10 m) (f_ln m) ->
  stores (be_varlen c) x q s -> stores (be_varlen c) b p sb -> (0 < q)%Q -> (0 < p)%Q ->
  (ten ^ (-990) <= Qabs (q - 1))%Q -> (ten ^ (-1980) <= Qabs (p - 1))%Q -> num_log c m fuel x b = Ret y ->
  exists r s', stores (be_varlen c) y r s' /\
    (s' = 1000%Z \/ 39000000000000 <= Rabs (ln (Q2R q) / ln (Q2R p)) * powerRZ 10 s').
Proof.
  intros c m fuel x q s b p sb y N H H' Q P Hq Hp E.
  destruct (log_api c m fuel x q s b p sb N H H' Q P (or_intror Hq) Hp) as [K|[[K _]|(y' & r & s' & E' & S & B & _ & A)]]; [congruence|congruence|].
  exists r, s'. replace y with y' by congruence. split; [exact S|]. destruct A as [A|[A|A]]; [now left| |now right].
  exfalso. rewrite A in Hq. change (Qabs (1 - 1)) with 0%Q in Hq. exact (Qlt_not_le _ _ (p10_pos (-990)) Hq).
Qed.
Print Assumptions C76_log_digits.

(** C77: the logarithm of a number within 10^-1020 of one, but not one, to a base between 1.1 and 1.5
    never returns: the logarithm of the base is rounded to zero, and divided by *)
Theorem C77_log_near_one_panics : forall c m fuel x q s b p sb, logs_near (f_log10 m) (f_ln m) ->
  stores (be_varlen c) x q s -> stores (be_varlen c) b p sb ->
  ~ (q == 1)%Q -> (Qabs (q - 1) <= ten ^ (-1020))%Q -> ((11 # 10) <= p <= (15 # 10))%Q ->
  num_log c m fuel x b = Diverge \/
  (num_log c m fuel x b = Panic WArith /\ dbg c = true) \/
  num_log c m fuel x b = Panic (WMsg MDivZero).
Proof. exact log_gives_up. Qed.
Print Assumptions C77_log_near_one_panics.

(** C85: however close to one the number is, the logarithm to a base not within 10^-1980 of one does not end,
    panics (on an arithmetic overflow in a debug build, or dividing by zero), or returns a number at a
    scale from the larger of the operands' (capped at 1000) to 1000: nothing else *)
Theorem C85_log_outcomes : forall c m fuel x q s b p sb, logs_near (f_log10 m) (f_ln m) ->
  stores (be_varlen c) x q s -> stores (be_varlen c) b p sb -> (0 < q)%Q -> (0 < p)%Q -> (ten ^ (-1980) <= Qabs (p - 1))%Q ->
  num_log c m fuel x b = Diverge \/
  (num_log c m fuel x b = Panic WArith /\ dbg c = true) \/
  num_log c m fuel x b = Panic (WMsg MDivZero) \/
  (exists y r s', num_log c m fuel x b = Ret y /\ stores (be_varlen c) y r s' /\ (Z.min 1000 (Z.max s sb) <= s' <= 1000)%Z).
Proof. exact log_any_api. Qed.
Print Assumptions C85_log_outcomes.

Theorem C85_log2_log10_outcomes : forall c m fuel x q s f, logs_near (f_log10 m) (f_ln m) ->
  stores (be_varlen c) x q s -> (0 < q)%Q -> f = num_log2 \/ f = num_log10 ->
  f c m fuel x = Diverge \/
  (f c m fuel x = Panic WArith /\ dbg c = true) \/
  f c m fuel x = Panic (WMsg MDivZero) \/
  (exists y r s', f c m fuel x = Ret y /\ stores (be_varlen c) y r s' /\ (Z.min 1000 s <= s' <= 1000)%Z).
Proof.
  intros c m fuel x q s f N H Q F. destruct (log_const_any_api c m fuel x q s N H Q) as [H2 H10].
  destruct F as [->| ->]; [exact H2|exact H10].
Qed.
Print Assumptions C85_log2_log10_outcomes.

(** ** The hypotheses are met ([logs_near]: logs_near_exist in P_Ln.v) *)
Open Scope Z_scope.
(** log10(2) = 0.3010299956639812, a run with some libm *)
Definition log_libm : libm := Libm (fun _ => 0%Q) (fun _ => (69 # 100)%Q) (fun _ => None).
Definition n_log2 : number := Number false (-1) 16 [3010; 2999; 5663; 9812].
Example log10_two : num_log10 relc log_libm 60 (sample n_two) = Ret (sample n_log2).
Proof. vm_compute. reflexivity. Qed.
Example two_away : stores false (sample n_two) (value n_two) 0 /\ (ten ^ (-990) <= Qabs (value n_two - 1))%Q.
Proof.
  split; [exact (sample_stores _ n_two_canonical)|]. apply (Qle_trans _ (p10 0)); [apply p10_le; lia|]. vm_compute. discriminate.
Qed.

(** 1 + 10^-1020 and 1.5: a run that panics *)
Definition n_near : number := Number false 0 1020 (1 :: repeat 0 254 ++ [1]).
Definition n_1_5 : number := Number false 0 1 [1; 5000].
Lemma n_1_5_canonical : canonical n_1_5. Proof. canonical_frac n_1_5 15. Qed.
Lemma n_near_canonical : canonical n_near.
Proof.
  constructor; unfold n_near; cbn [digs neg wt scale].
  - constructor; [cbv beta; lia|]. apply Forall_app. split; [|constructor; [cbv beta; lia|constructor]].
    apply Forall_forall. intros d D. apply repeat_spec in D. subst d. cbv beta. lia.
  - intros d t E. injection E as <- _. discriminate.
  - intros d t E. rewrite app_comm_cons in E. apply app_inj_tail in E. destruct E as [_ <-]. discriminate.
  - discriminate.
  - lia.
  - lia.
  - exists (10 ^ 1020 + 1). apply (frac_ok n_near). vm_compute. reflexivity.
Qed.
Example near_meets : stores false (sample n_near) (value n_near) 1020 /\ (value n_near - 1 == ten ^ (-1020))%Q.
Proof.
  split; [exact (sample_stores _ n_near_canonical)|]. rewrite vval_value. unfold vval.
  replace (smag (of_number n_near)) with (10 ^ 1020 + 1) by (vm_compute; reflexivity). change (4 * lsd (of_number n_near)) with (-1020).
  unfold dec. rewrite inject_Z_plus, <- p10_Z by lia. change (ten ^ (-1020))%Q with (p10 (-1020)).
  pose proof (p10_opp 1020) as O. change (- (1020)) with (-1020) in O. revert O. change (inject_Z 1) with 1%Q.
  generalize (p10 1020) (p10 (-1020)). intros u v O.
  setoid_replace ((u + 1) * v - 1)%Q with (u * v + v - 1)%Q by ring. rewrite O. ring.
Qed.
Example log_near_run : num_log relc log_libm 60 (sample n_near) (sample n_1_5) = Panic (WMsg MDivZero).
Proof. vm_compute. reflexivity. Qed.
