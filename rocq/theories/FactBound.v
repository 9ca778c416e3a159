(** * FactBound: 32177! < 10^131072 <= 32178!, by rounded binary floating-point product trees. *)
From Coq Require Import ZArith List Bool Lia.
Import ListNotations.
Open Scope Z_scope.

(** [lo+1 * ... * lo+n] *)
Fixpoint range_prod (lo : Z) (n : nat) : Z :=
  match n with
  | O => 1
  | S k => range_prod lo k * (lo + Z.of_nat n)
  end.

Lemma range_prod_pos n : forall lo, 0 <= lo -> 0 < range_prod lo n.
Proof. induction n as [|n IH]; intros lo H; cbn [range_prod]; [lia|]. specialize (IH lo H). nia. Qed.

Lemma range_prod_add n : forall m lo, range_prod lo (n + m) = range_prod lo n * range_prod (lo + Z.of_nat n) m.
Proof.
  intros m. induction m as [|m IH]; intro lo.
  - rewrite Nat.add_0_r. cbn [range_prod]. lia.
  - rewrite Nat.add_succ_r. cbn [range_prod]. rewrite IH. rewrite <- Z.mul_assoc. f_equal. f_equal. lia.
Qed.

(** Mantissa and binary exponent. *)
Definition flt := (Z * Z)%type.
Definition shift_of (m : Z) : Z := Z.max 0 (Z.log2 m - 23).
Definition mul_dn (a b : flt) : flt :=
  let m := fst a * fst b in let s := shift_of m in (Z.shiftr m s, snd a + snd b + s).
Definition mul_up (a b : flt) : flt :=
  let m := fst a * fst b in let s := shift_of m in ((if s =? 0 then m else Z.shiftr m s + 1), snd a + snd b + s).

Definition below (f : flt) (P : Z) : Prop := 0 <= fst f /\ 0 <= snd f /\ fst f * 2 ^ snd f <= P.
Definition above (f : flt) (P : Z) : Prop := 0 <= fst f /\ 0 <= snd f /\ P <= fst f * 2 ^ snd f.

Lemma mul_dn_ok a b P Q : 0 <= P -> 0 <= Q -> below a P -> below b Q -> below (mul_dn a b) (P * Q).
Proof.
  intros HP HQ (A1 & A2 & A3) (B1 & B2 & B3). unfold mul_dn, below. cbn [fst snd].
  set (m := fst a * fst b). assert (Hm : 0 <= m) by (unfold m; nia).
  assert (Hs : 0 <= shift_of m) by (unfold shift_of; lia). set (s := shift_of m) in *.
  rewrite Z.shiftr_div_pow2 by exact Hs. pose proof (Z.pow_pos_nonneg 2 s ltac:(lia) Hs) as P2.
  split; [apply Z.div_pos; lia|]. split; [lia|].
  rewrite !Z.pow_add_r by lia. pose proof (Z.mul_div_le m (2 ^ s) P2) as L.
  pose proof (Z.pow_pos_nonneg 2 (snd a) ltac:(lia) A2). pose proof (Z.pow_pos_nonneg 2 (snd b) ltac:(lia) B2).
  apply Z.le_trans with (m * (2 ^ snd a * 2 ^ snd b)).
  - replace (m / 2 ^ s * (2 ^ snd a * 2 ^ snd b * 2 ^ s)) with (2 ^ s * (m / 2 ^ s) * (2 ^ snd a * 2 ^ snd b)) by ring.
    apply Z.mul_le_mono_nonneg_r; [nia|exact L].
  - unfold m. replace (fst a * fst b * (2 ^ snd a * 2 ^ snd b)) with ((fst a * 2 ^ snd a) * (fst b * 2 ^ snd b)) by ring.
    apply Z.mul_le_mono_nonneg; nia.
Qed.

Lemma mul_up_ok a b P Q : 0 <= P -> 0 <= Q -> above a P -> above b Q -> above (mul_up a b) (P * Q).
Proof.
  intros HP HQ (A1 & A2 & A3) (B1 & B2 & B3). unfold mul_up, above. cbn [fst snd].
  set (m := fst a * fst b). assert (Hm : 0 <= m) by (unfold m; nia).
  assert (Hs : 0 <= shift_of m) by (unfold shift_of; lia). set (s := shift_of m) in *.
  destruct (Z.eqb_spec s 0) as [S0|S0].
  { split; [lia|]. split; [lia|]. rewrite S0, Z.add_0_r, Z.pow_add_r by lia. unfold m.
    replace (fst a * fst b * (2 ^ snd a * 2 ^ snd b)) with ((fst a * 2 ^ snd a) * (fst b * 2 ^ snd b)) by ring.
    apply Z.mul_le_mono_nonneg; assumption. }
  rewrite Z.shiftr_div_pow2 by exact Hs. pose proof (Z.pow_pos_nonneg 2 s ltac:(lia) Hs) as P2.
  pose proof (Z.div_pos m (2 ^ s) Hm P2). split; [lia|]. split; [lia|].
  rewrite !Z.pow_add_r by lia. pose proof (Z.mul_succ_div_gt m (2 ^ s) P2) as L. unfold Z.succ in L.
  pose proof (Z.pow_pos_nonneg 2 (snd a) ltac:(lia) A2). pose proof (Z.pow_pos_nonneg 2 (snd b) ltac:(lia) B2).
  apply Z.le_trans with (m * (2 ^ snd a * 2 ^ snd b)).
  - unfold m. replace (fst a * fst b * (2 ^ snd a * 2 ^ snd b)) with ((fst a * 2 ^ snd a) * (fst b * 2 ^ snd b)) by ring.
    apply Z.mul_le_mono_nonneg; assumption.
  - replace ((m / 2 ^ s + 1) * (2 ^ snd a * 2 ^ snd b * 2 ^ s)) with (2 ^ s * (m / 2 ^ s + 1) * (2 ^ snd a * 2 ^ snd b)) by ring.
    apply Z.mul_le_mono_nonneg_r; [nia|lia].
Qed.

(** Product of [lo+1 .. lo+2^d]. *)
Fixpoint tree (mul : flt -> flt -> flt) (d : nat) (lo : Z) : flt :=
  match d with
  | O => (lo + 1, 0)
  | S d' => mul (tree mul d' lo) (tree mul d' (lo + 2 ^ Z.of_nat d'))
  end.

Lemma pow2_nat d : Z.of_nat (2 ^ d) = 2 ^ Z.of_nat d.
Proof. induction d as [|d IH]; [reflexivity|]. rewrite Nat2Z.inj_succ, Z.pow_succ_r by lia. cbn [Nat.pow]. lia. Qed.

Lemma tree_dn d : forall lo, 0 <= lo -> below (tree mul_dn d lo) (range_prod lo (2 ^ d)).
Proof.
  induction d as [|d IH]; intros lo H.
  - unfold below. cbn [tree fst snd Nat.pow range_prod]. change (2 ^ 0) with 1. change (Z.of_nat 1) with 1. lia.
  - cbn [tree]. replace (2 ^ S d)%nat with (2 ^ d + 2 ^ d)%nat by (cbn; lia). rewrite range_prod_add, pow2_nat.
    pose proof (Z.pow_nonneg 2 (Z.of_nat d) ltac:(lia)).
    apply mul_dn_ok; try apply IH; try lia; apply Z.lt_le_incl, range_prod_pos; lia.
Qed.

Lemma tree_up d : forall lo, 0 <= lo -> above (tree mul_up d lo) (range_prod lo (2 ^ d)).
Proof.
  induction d as [|d IH]; intros lo H.
  - unfold above. cbn [tree fst snd Nat.pow range_prod]. change (2 ^ 0) with 1. change (Z.of_nat 1) with 1. lia.
  - cbn [tree]. replace (2 ^ S d)%nat with (2 ^ d + 2 ^ d)%nat by (cbn; lia). rewrite range_prod_add, pow2_nat.
    pose proof (Z.pow_nonneg 2 (Z.of_nat d) ltac:(lia)).
    apply mul_up_ok; try apply IH; try lia; apply Z.lt_le_incl, range_prod_pos; lia.
Qed.

(** A product of consecutive power-of-two blocks. *)
Fixpoint blocks (mul : flt -> flt -> flt) (ds : list nat) (lo : Z) : flt :=
  match ds with
  | [] => (1, 0)
  | d :: t => mul (tree mul d lo) (blocks mul t (lo + 2 ^ Z.of_nat d))
  end.
Fixpoint total (ds : list nat) : nat := match ds with [] => O | d :: t => (2 ^ d + total t)%nat end.

Lemma blocks_dn ds : forall lo, 0 <= lo -> below (blocks mul_dn ds lo) (range_prod lo (total ds)).
Proof.
  induction ds as [|d t IH]; intros lo H; cbn [blocks total].
  - unfold below. cbn. lia.
  - rewrite range_prod_add, pow2_nat. pose proof (Z.pow_nonneg 2 (Z.of_nat d) ltac:(lia)).
    apply mul_dn_ok; try apply IH; try apply tree_dn; try lia; apply Z.lt_le_incl, range_prod_pos; lia.
Qed.

Lemma blocks_up ds : forall lo, 0 <= lo -> above (blocks mul_up ds lo) (range_prod lo (total ds)).
Proof.
  induction ds as [|d t IH]; intros lo H; cbn [blocks total].
  - unfold above. cbn. lia.
  - rewrite range_prod_add, pow2_nat. pose proof (Z.pow_nonneg 2 (Z.of_nat d) ltac:(lia)).
    apply mul_up_ok; try apply IH; try apply tree_up; try lia; apply Z.lt_le_incl, range_prod_pos; lia.
Qed.

(** 10^(2^k) by repeated squaring. *)
Fixpoint tens (mul : flt -> flt -> flt) (k : nat) : flt :=
  match k with
  | O => (10, 0)
  | S k' => let a := tens mul k' in mul a a
  end.

Lemma tens_dn k : below (tens mul_dn k) (10 ^ 2 ^ Z.of_nat k).
Proof.
  induction k as [|k IH]; [unfold below; cbn; lia|]. cbn [tens]. rewrite Nat2Z.inj_succ, Z.pow_succ_r by lia.
  pose proof (Z.pow_nonneg 2 (Z.of_nat k) ltac:(lia)).
  replace (2 * 2 ^ Z.of_nat k) with (2 ^ Z.of_nat k + 2 ^ Z.of_nat k) by lia. rewrite Z.pow_add_r by lia.
  apply mul_dn_ok; try exact IH; apply Z.pow_nonneg; lia.
Qed.

Lemma tens_up k : above (tens mul_up k) (10 ^ 2 ^ Z.of_nat k).
Proof.
  induction k as [|k IH]; [unfold above; cbn; lia|]. cbn [tens]. rewrite Nat2Z.inj_succ, Z.pow_succ_r by lia.
  pose proof (Z.pow_nonneg 2 (Z.of_nat k) ltac:(lia)).
  replace (2 * 2 ^ Z.of_nat k) with (2 ^ Z.of_nat k + 2 ^ Z.of_nat k) by lia. rewrite Z.pow_add_r by lia.
  apply mul_up_ok; try exact IH; apply Z.pow_nonneg; lia.
Qed.

(** Comparison of floats without large powers. *)
Definition flt_lt (a b : flt) : bool := (snd a <=? snd b) && (fst a <? fst b * 2 ^ (snd b - snd a))
  || (snd b <? snd a) && (fst a * 2 ^ (snd a - snd b) <? fst b).

Lemma flt_lt_ok a b P Q : above a P -> below b Q -> flt_lt a b = true -> P < Q.
Proof.
  intros (A1 & A2 & A3) (B1 & B2 & B3) H. apply Z.le_lt_trans with (1 := A3). apply Z.lt_le_trans with (2 := B3).
  unfold flt_lt in H. apply orb_prop in H. destruct H as [H|H]; apply andb_prop in H; destruct H as [H1 H2].
  - apply Z.leb_le in H1. apply Z.ltb_lt in H2. replace (snd b) with (snd b - snd a + snd a) at 1 by lia.
    rewrite Z.pow_add_r by lia. rewrite Z.mul_assoc. apply Z.mul_lt_mono_pos_r; [apply Z.pow_pos_nonneg; lia|exact H2].
  - apply Z.ltb_lt in H1. apply Z.ltb_lt in H2. replace (snd a) with (snd a - snd b + snd b) at 1 by lia.
    rewrite Z.pow_add_r by lia. rewrite Z.mul_assoc. apply Z.mul_lt_mono_pos_r; [apply Z.pow_pos_nonneg; lia|exact H2].
Qed.

Definition b32177 : list nat := [14; 13; 12; 11; 10; 8; 7; 5; 4; 0]%nat.
Definition b32178 : list nat := [14; 13; 12; 11; 10; 8; 7; 5; 4; 1]%nat.

Fixpoint totalz (ds : list nat) : Z := match ds with [] => 0 | d :: t => 2 ^ Z.of_nat d + totalz t end.
Lemma total_z ds : Z.of_nat (total ds) = totalz ds.
Proof. induction ds as [|d t IH]; [reflexivity|]. cbn [total totalz]. rewrite Nat2Z.inj_add, pow2_nat, IH. reflexivity. Qed.

Lemma total_32177 : total b32177 = Z.to_nat 32177.
Proof. apply Nat2Z.inj. rewrite total_z, Z2Nat.id by lia. reflexivity. Qed.
Lemma total_32178 : total b32178 = Z.to_nat 32178.
Proof. apply Nat2Z.inj. rewrite total_z, Z2Nat.id by lia. reflexivity. Qed.

Lemma cmp_32177 : flt_lt (blocks mul_up b32177 0) (tens mul_dn 17) = true.
Proof. vm_compute. reflexivity. Qed.
Lemma cmp_32178 : flt_lt (tens mul_up 17) (blocks mul_dn b32178 0) = true.
Proof. vm_compute. reflexivity. Qed.

Lemma fact_32177 : range_prod 0 (Z.to_nat 32177) < 10 ^ 2 ^ Z.of_nat 17.
Proof. rewrite <- total_32177. exact (flt_lt_ok _ _ _ _ (blocks_up b32177 0 (Z.le_refl 0)) (tens_dn 17) cmp_32177). Qed.

Lemma fact_32178 : 10 ^ 2 ^ Z.of_nat 17 < range_prod 0 (Z.to_nat 32178).
Proof. rewrite <- total_32178. exact (flt_lt_ok _ _ _ _ (tens_up 17) (blocks_dn b32178 0 (Z.le_refl 0)) cmp_32178). Qed.
