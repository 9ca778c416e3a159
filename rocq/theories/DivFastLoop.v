(** * DivFastLoop: the quotient loop of the fast division. *)
From Coq Require Import ZArith QArith Lia List Bool.
From Verif Require Import Base Var Flt FltFacts Transc Digits Arith DivFastEst DivFastInt DivFastStep.
Import ListNotations.
Open Scope Z_scope.

Local Notation B := 10000.

Section Divisor.
Context (c : cfg) (d0 : Z) (dt : list Z) (Dd : Forall dig (d0 :: dt)) (N0 : d0 <> 0).
Let ds := d0 :: dt.
Let F := dal 4 ds.
Let finv := fdiv 1 (first4 ds).
Let b := B ^ lenz dt.

Lemma b_pos : 0 < b.
Proof. apply pB_len. Qed.

Lemma lenz_ds : lenz ds = 1 + lenz dt.
Proof. apply lenz_cons. Qed.

(** A prefix of the divisor against the whole divisor. *)
Lemma prefix_gap n : exists e, dval ds * B ^ Z.of_nat n = dal (S n) ds * b + e /\ 0 <= e <= b.
Proof.
  pose proof b_pos as Pb. pose proof (lenz_nonneg dt) as Ld.
  destruct (le_lt_dec (length ds) (S n)) as [L|L].
  - exists 0. rewrite (dal_pad (S n) ds L). split; [|lia]. rewrite lenz_ds.
    assert (H : 1 + lenz dt <= Z.of_nat (S n)) by (unfold ds, lenz in *; cbn in L; lia).
    assert (E : B ^ Z.of_nat n = B ^ (Z.of_nat (S n) - (1 + lenz dt)) * b).
    { unfold b. rewrite <- pB_add by lia. f_equal. lia. }
    rewrite E. ring.
  - destruct (dal_split (S n) (length ds) ds ltac:(lia) Dd) as (r & E & R & _).
    rewrite dal_full in E. change (Z.of_nat (length ds)) with (lenz ds) in *. rewrite lenz_ds in *.
    assert (H : Z.of_nat (S n) < 1 + lenz dt) by (unfold ds, lenz in *; cbn in L; lia).
    assert (P : B ^ (1 + lenz dt - Z.of_nat (S n)) * B ^ Z.of_nat n = b).
    { unfold b. rewrite <- pB_add by lia. f_equal. lia. }
    exists (r * B ^ Z.of_nat n). rewrite E. split; [rewrite <- P; ring|].
    pose proof (pB_pos' (Z.of_nat n) ltac:(lia)). rewrite <- P. split.
    + apply Z.mul_nonneg_nonneg; lia.
    + apply Z.mul_le_mono_nonneg_r; lia.
Qed.

Lemma loop_spec m : forall md rem, St d0 dt m md rem ->
  (exists qs, df_loop c m ds finv md rem = Ret qs /\ length qs = S m /\ cellb 3 qs /\
     Z.abs (dval rem * b - dval qs * dval ds) <= (Z.of_nat m + 1) * (10004 * b)) \/
  (dbg c = true /\ df_loop c m ds finv md rem = Panic WArith /\ ~ safe d0 dt rem).
Proof.
  pose proof b_pos as Pb. pose proof (F_bound d0 dt Dd N0) as HF. change (dal 4 (d0 :: dt)) with F in HF.
  induction m as [|m IH]; intros md rem HS.
  - left. destruct HS as [L C M V]. destruct rem as [|r0 [|]]; [cbn in L; lia| |cbn in L; lia].
    cbn [tl] in C. cbn [kfac] in V.
    assert (C' : cellb 214748 []) by constructor.
    destruct (estimate_value c d0 dt Dd N0 r0 [] 20010 C' ltac:(lia) V) as (q & Eq & Q & Qa).
    change (dal 4 (d0 :: dt)) with F in Q. change (B ^ lenz []) with 1 in Q. rewrite Z.mul_1_r in Q.
    rewrite E3 in Q.
    exists [q]. cbn [df_loop]. unfold finv, ds. rewrite Eq. cbn [bind]. split; [reflexivity|]. split; [reflexivity|].
    split; [constructor; [lia|constructor]|].
    assert (E1 : forall x, dval [x] = x) by (intro x; rewrite dval_cons; change (lenz (@nil Z)) with 0; cbn [dval]; lia).
    rewrite !E1 in *. fold ds.
    destruct (prefix_gap 3) as (e & E & He). change (dal 4 ds) with F in E.
    change (Z.of_nat 3) with 3 in E. rewrite E3 in E.
    set (D := dval ds) in *.
    assert (EV : 1000000000000 * (r0 * b - q * D) = (r0 * 1000000000000 - q * F) * b - q * e).
    { transitivity (r0 * b * 1000000000000 - q * (D * 1000000000000)); [ring|]. rewrite E. ring. }
    assert (A1 : 10000000 * Z.abs ((r0 * 1000000000000 - q * F) * b) <= 10000006 * (10000000000000000 * b)).
    { rewrite Z.abs_mul, (Z.abs_eq b) by lia.
      replace (10000000 * (Z.abs (r0 * 1000000000000 - q * F) * b)) with ((10000000 * Z.abs (r0 * 1000000000000 - q * F)) * b) by ring.
      replace (10000006 * (10000000000000000 * b)) with ((10000006 * 10000000000000000) * b) by ring.
      apply Z.mul_le_mono_nonneg_r; lia. }
    assert (A2 : Z.abs (q * e) <= 20011 * b) by (rewrite Z.abs_mul; apply Z.mul_le_mono_nonneg; lia).
    set (u := (r0 * 1000000000000 - q * F) * b) in *. set (w := q * e) in *. set (z := r0 * b - q * D) in *.
    clearbody u w z b. clear - EV A1 A2 Pb. change (Z.of_nat 0 + 1) with 1. lia.
  - cbn [df_loop].
    destruct (step_spec c d0 dt Dd N0 m md rem HS) as [(q & md' & rem' & E & S' & V & Q & SF)|(Ed & E & NS)].
    + fold ds in E. fold finv in E. rewrite E. cbn [bind].
      destruct (IH md' rem' S') as [(qs & El & Lq & Cq & Vq)|(Ed & El & NS)].
      * left. exists (q :: qs). rewrite El. cbn [bind]. split; [reflexivity|]. split; [cbn; lia|].
        split; [constructor; [lia|exact Cq]|].
        rewrite dval_cons. assert (Lz : lenz qs = Z.of_nat (S m)) by (unfold lenz; lia). rewrite Lz.
        destruct (prefix_gap (S m)) as (e & Ee & He). fold ds in V. rewrite V.
        set (D := dval ds) in *. set (X := dal (S (S m)) ds) in *.
        assert (EV : (q * X + dval rem') * b - (q * B ^ Z.of_nat (S m) + dval qs) * D
                     = (dval rem' * b - dval qs * D) - q * e).
        { transitivity (q * X * b + dval rem' * b - q * (D * B ^ Z.of_nat (S m)) - dval qs * D); [ring|].
          rewrite Ee. ring. }
        rewrite EV.
        assert (A2 : Z.abs (q * e) <= 10004 * b) by (rewrite Z.abs_mul; apply Z.mul_le_mono_nonneg; lia).
        replace (Z.of_nat (S m) + 1) with ((Z.of_nat m + 1) + 1) by lia. rewrite (Z.mul_add_distr_r (Z.of_nat m + 1)).
        lia.
      * right. split; [exact Ed|]. rewrite El. split; [reflexivity|]. intro S. apply NS. apply SF. exact S.
    + right. fold ds in E. fold finv in E. rewrite E. split; [exact Ed|]. split; [reflexivity|exact NS].
Qed.
End Divisor.
