(** * SqrtLoop: inputs on which the Newton iteration never settles, and on which it panics. *)
From Coq Require Import ZArith QArith List Bool Lia.
From Verif Require Import Base Var Binary Num Flt Transc Spec QDec Digits Codec Make Sqrt SqrtApi Samples.
Import ListNotations.
Open Scope Z_scope.

(** [n] iterations, none of which stops the loop *)
Fixpoint walk (c : cfg) (v : var) (ls : Z) (n : nat) (x : var) : option var :=
  match n with
  | O => Some x
  | S k =>
      match newton c v x ls with
      | Ret y => match cmp_common c y x with
                 | Ret s => if s =? 0 then None else walk c v ls k y
                 | _ => None
                 end
      | _ => None
      end
  end.

Lemma walk_loop c v ls n : forall x y, walk c v ls n x = Some y ->
  forall f, sqrt_loop c (n + f) v x x ls = sqrt_loop c f v y y ls.
Proof.
  induction n as [|n IH]; cbn [walk]; intros x y H f; [injection H as <-; reflexivity|].
  cbn [Nat.add]. rewrite sqrt_loop_S. destruct (newton c v x ls) as [z| | |]; try discriminate. cbn [bind].
  destruct (cmp_common c z x) as [s| | |]; try discriminate. cbn [bind]. destruct (s =? 0); [discriminate|].
  now apply IH.
Qed.

Lemma walk_diverge c v ls n : forall x y, walk c v ls n x = Some y ->
  forall f, (f <= n)%nat -> sqrt_loop c f v x x ls = Diverge.
Proof.
  induction n as [|n IH]; intros x y H f Hf.
  - assert (f = O) by lia. now subst f.
  - destruct f as [|f]; [reflexivity|]. cbn [walk] in H.
    rewrite sqrt_loop_S. destruct (newton c v x ls) as [z| | |]; try discriminate. cbn [bind].
    destruct (cmp_common c z x) as [s| | |]; try discriminate. cbn [bind]. destruct (s =? 0); [discriminate|].
    apply (IH _ _ H). lia.
Qed.

(** a path into a cycle *)
Lemma cycle_diverge c v ls n k g a : walk c v ls n g = Some a -> walk c v ls (S k) a = Some a ->
  forall f, sqrt_loop c f v g g ls = Diverge.
Proof.
  intros P C.
  assert (L : forall m f, (f <= m)%nat -> sqrt_loop c f v a a ls = Diverge).
  { induction m as [|m IH]; intros f Hf; [assert (f = O) by lia; now subst f|].
    destruct (Nat.le_gt_cases f (S k)) as [G|G]; [now apply (walk_diverge c v ls (S k) a a C)|].
    replace f with (S k + (f - S k))%nat by lia. rewrite (walk_loop c v ls (S k) a a C). apply IH. lia. }
  intro f. destruct (Nat.le_gt_cases f n) as [G|G]; [now apply (walk_diverge c v ls n g a P)|].
  replace f with (n + (f - n))%nat by lia. rewrite (walk_loop c v ls n g a P). now apply (L (f - n)%nat).
Qed.

(** 43559999999999999999.9999901 *)
Definition v_osc : var := Var 4 7 SPos [4355; 9999; 9999; 9999; 9999; 9999; 9010].
Definition osc_guess : var := Var 2 0 SPos [2177].
Definition osc_a : var := Var 2 15 SPos [66].

Lemma osc_path c : walk c v_osc 15 10 osc_guess = Some osc_a.
Proof. destruct c as [[|] be]; vm_compute; reflexivity. Qed.

Lemma osc_cycle c : walk c v_osc 15 2 osc_a = Some osc_a.
Proof. destruct c as [[|] be]; vm_compute; reflexivity. Qed.

(** values without computing powers *)
Lemma vval_value n : (value n == vval (of_number n))%Q.
Proof. symmetry. apply vval_of_number. Qed.

Lemma frac_ok n k : smag (of_number n) * 10 ^ Z.max 0 (4 * lsd (of_number n) + scale n)
    = k * 10 ^ Z.max 0 (- (4 * lsd (of_number n) + scale n)) ->
  (value n * ten ^ scale n == inject_Z k)%Q.
Proof.
  intro H. rewrite vval_value. unfold vval. change (ten ^ scale n)%Q with (p10 (scale n)). rewrite dec_p10.
  rewrite <- (dec_Z k). set (e := 4 * lsd (of_number n) + scale n) in *. clearbody e.
  destruct (Z_le_gt_dec 0 e) as [G|G].
  - rewrite Z.max_r in H by lia. rewrite Z.max_l in H by lia. rewrite <- (Z.add_0_l e), <- dec_shift by lia.
    rewrite H. change (10 ^ 0) with 1. now rewrite Z.mul_1_r.
  - rewrite Z.max_l in H by lia. rewrite Z.max_r in H by lia. change (10 ^ 0) with 1 in H. rewrite Z.mul_1_r in H.
    rewrite H. rewrite dec_shift by lia. now replace (e + - e) with 0 by lia.
Qed.

Lemma pos_ok n : 0 < smag (of_number n) -> (0 < vval (of_number n))%Q.
Proof. intro H. unfold vval. rewrite <- (dec_0 (4 * lsd (of_number n))). now apply dec_lt_iff. Qed.

Ltac canonical_frac n k :=
  unfold n; constructor; cbn [digs neg wt scale];
  [ repeat (apply Forall_cons; [cbv beta; lia|]); apply Forall_nil
  | intros ? ? E; try discriminate E; injection E as <- _; discriminate
  | try last_nz; try (intros ? t E; destruct t; discriminate E)
  | try discriminate; auto
  | lia | lia
  | exists k; apply (frac_ok n k); vm_compute; reflexivity ].

Definition n_osc : number := Number false 4 7 [4355; 9999; 9999; 9999; 9999; 9999; 9010].
Lemma n_osc_canonical : canonical n_osc.
Proof. canonical_frac n_osc 435599999999999999999999901. Qed.

Lemma n_osc_value : (value n_osc == 435599999999999999999999901 # 10000000)%Q.
Proof. rewrite vval_value. vm_compute. reflexivity. Qed.

Lemma sqrt_osc c fuel : num_sqrt c fuel (layout (be_varlen c) n_osc) = Diverge.
Proof.
  change n_osc with (to_number v_osc).
  assert (C : canon v_osc) by exact (canonical_canon n_osc n_osc_canonical).
  destruct (num_sqrt_unfold c fuel v_osc C) as (g & Eg & ->).
  { apply (pos_ok n_osc). vm_compute. reflexivity. }
  change (sqrt_guess v_osc) with (Ret osc_guess) in Eg. injection Eg as <-.
  change (sqrt_rscale v_osc) with 7. change (7 + 8) with 15.
  rewrite (cycle_diverge c v_osc 15 10 1 osc_guess osc_a (osc_path c) (osc_cycle c)). reflexivity.
Qed.

(** 10^-4000 *)
Definition n_tiny : number := Number false (-1000) 4000 [1].
Lemma n_tiny_canonical : canonical n_tiny.
Proof. canonical_frac n_tiny 1. Qed.

Lemma n_tiny_value : (value n_tiny == ten ^ (-4000))%Q.
Proof.
  rewrite vval_value. unfold vval. change (smag (of_number n_tiny)) with 1.
  change (4 * lsd (of_number n_tiny)) with (-4000). now rewrite dec_1.
Qed.

Lemma sqrt_tiny c fuel : num_sqrt c (S (S fuel)) (layout (be_varlen c) n_tiny) = Panic (WMsg MShouldNotBeZero).
Proof.
  set (v := Var (-1000) 4000 SPos [1]). change n_tiny with (to_number v).
  assert (C : canon v) by exact (canonical_canon n_tiny n_tiny_canonical).
  destruct (num_sqrt_unfold c (S (S fuel)) v C) as (g & Eg & ->).
  { unfold vval. change 0%Q with (inject_Z 0). apply Qmult_lt_0_compat; [reflexivity|apply p10_pos]. }
  change (sqrt_guess v) with (Ret (Var (-500) 0 SPos [1])) in Eg. injection Eg as <-.
  change (sqrt_rscale v) with 1000. change (1000 + 8) with 1008.
  assert (W : walk c v 1008 1 (Var (-500) 0 SPos [1]) = Some (Var 0 1008 SPos [])).
  { destruct c as [[|] be]; vm_compute; reflexivity. }
  change (S (S fuel)) with (1 + S fuel)%nat.
  rewrite (walk_loop c v 1008 1 _ _ W). rewrite sqrt_loop_S.
  rewrite newton_zero; [reflexivity|apply Signed.stripped_semi, C| |reflexivity].
  constructor; cbn; auto; try discriminate. intros d t E. destruct t; discriminate E.
Qed.

(** 19710.9711 9711 ... 9710, 100 decimals *)
Definition n_ovf : number := Number false 1 100
  [1; 9710; 9711; 9711; 9711; 9711; 9711; 9711; 9711; 9711; 9711; 9711; 9711; 9711; 9711; 9711; 9711; 9711; 9711;
   9711; 9711; 9711; 9711; 9711; 9711; 9711; 9710].
Definition ovf_x : var := Var 0 108 SPos
  [9855; 9855; 9855; 9855; 9855; 9855; 9855; 9855; 9855; 9855; 9855; 9855; 9855; 9855; 9855; 9855; 9855; 9855; 9855;
   9855; 9855; 9855; 9855; 9855; 9855; 9855].
Lemma n_ovf_canonical : canonical n_ovf.
Proof. canonical_frac n_ovf 197109711971197119711971197119711971197119711971197119711971197119711971197119711971197119711971197119710. Qed.

Lemma sqrt_ovf be fuel : num_sqrt (Cfg true be) (S (S fuel)) (layout be n_ovf) = Panic WArith.
Proof.
  set (v := of_number n_ovf). rewrite <- (to_of_number n_ovf). fold v.
  assert (C : canon v) by exact (canonical_canon n_ovf n_ovf_canonical).
  destruct (num_sqrt_unfold (Cfg true be) (S (S fuel)) v C) as (g & Eg & E).
  { apply (pos_ok n_ovf). vm_compute. reflexivity. }
  cbn [be_varlen] in E. rewrite E. clear E.
  change (sqrt_guess v) with (Ret (Var 0 0 SPos [1])) in Eg. injection Eg as <-.
  change (sqrt_rscale v) with 100. change (100 + 8) with 108.
  assert (W : walk (Cfg true be) v 108 1 (Var 0 0 SPos [1]) = Some ovf_x).
  { vm_compute. reflexivity. }
  change (S (S fuel)) with (1 + S fuel)%nat. rewrite (walk_loop (Cfg true be) v 108 1 _ _ W). rewrite sqrt_loop_S.
  assert (N : newton (Cfg true be) v ovf_x 108 = Panic WArith) by (vm_compute; reflexivity).
  rewrite N. reflexivity.
Qed.
