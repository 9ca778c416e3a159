(** * DivFastInt: the integer side of the fast division: carries, the subtraction of a multiple of
    the divisor, one step of the quotient loop. *)
From Coq Require Import ZArith QArith Lia List Bool.
From Verif Require Import Base Var Flt FltFacts Transc Digits Arith DivFastEst.
Import ListNotations.
Open Scope Z_scope.

Local Notation B := 10000.

Definition cellb (k : Z) (l : list Z) : Prop := Forall (fun x => Z.abs x <= 9999 * k) l.

Lemma cellb_dval k l : 0 <= k -> cellb k l -> Z.abs (dval l) <= k * (B ^ lenz l - 1).
Proof.
  intros K. induction l as [|x l IH]; intro H; [cbn; lia|].
  inversion H as [|? ? Hx Hl]; subst. specialize (IH Hl). rewrite dval_cons, lenz_cons.
  rewrite pB_succ by apply lenz_nonneg. pose proof (pB_len l) as P. nia.
Qed.

Lemma cellb_dval' k l : 0 <= k -> cellb k l -> Z.abs (dval l) <= k * B ^ lenz l.
Proof. intros K H. pose proof (cellb_dval k l K H). lia. Qed.

Lemma dig_cellb l : Forall dig l -> cellb 1 l.
Proof. apply Forall_impl. unfold dig. lia. Qed.

Lemma cellb_mono a b l : a <= b -> cellb a l -> cellb b l.
Proof. intros H. apply Forall_impl. lia. Qed.

(** ** Carries *)
Lemma carry_of_spec c x : - 2147480000 <= x <= 2147483647 -> carry_of c x = Ret (x / B, x mod B).
Proof.
  intro H. unfold carry_of. change NBASE with B.
  pose proof (Z.div_mod x B ltac:(lia)) as E. pose proof (Z.mod_pos_bound x B ltac:(lia)) as M.
  set (k := x / B) in *. set (r := x mod B) in *.
  destruct (Z.ltb_spec x 0) as [N|N].
  - rewrite i32_ok by lia. cbn [bind]. rewrite i32_ok by lia. cbn [bind].
    assert (Q : - Z.quot (- x - 1) B - 1 = k).
    { assert (Eq : Z.quot (- x - 1) B = - k - 1).
      { rewrite Z.quot_div_nonneg by lia. symmetry. apply Z.div_unique with (r := B - 1 - r); lia. }
      lia. }
    rewrite Q. rewrite i32_ok by lia. cbn [bind]. rewrite i32_ok by lia. cbn [bind].
    rewrite i32_ok by lia. cbn [bind]. f_equal. f_equal. lia.
  - destruct (Z.leb_spec B x).
    + rewrite Z.quot_div_nonneg by lia. fold k. rewrite i32_ok by lia. cbn [bind].
      rewrite i32_ok by lia. cbn [bind]. f_equal. f_equal. lia.
    + assert (k = 0) by lia. f_equal. f_equal; lia.
Qed.

Lemma carry_down_spec c l : cellb 214748 l ->
  exists k l', carry_down c l = Ret (k, l') /\ Forall dig l' /\ length l' = length l /\
    dval l = k * B ^ lenz l + dval l' /\ Z.abs k <= 214748.
Proof.
  induction l as [|x l IH]; intro H.
  - exists 0, []. cbn. repeat split; auto; lia.
  - inversion H as [|? ? Hx Hl]; subst. destruct (IH Hl) as (k & l' & E & D & L & V & K).
    cbn [carry_down]. rewrite E. cbn [bind]. rewrite i32_ok by lia. cbn [bind].
    rewrite carry_of_spec by lia. cbn [bind].
    pose proof (Z.div_mod (x + k) B ltac:(lia)) as Ex. pose proof (Z.mod_pos_bound (x + k) B ltac:(lia)) as M.
    set (k' := (x + k) / B) in *. set (r := (x + k) mod B) in *.
    exists k', (r :: l'). split; [reflexivity|]. split; [constructor; [unfold dig; lia|exact D]|].
    split; [cbn; lia|]. split; [|lia].
    rewrite !dval_cons, lenz_cons, pB_succ by apply lenz_nonneg.
    assert (EL : lenz l' = lenz l) by (unfold lenz; lia). rewrite EL, V.
    replace x with (B * k' + r - k) by lia. ring.
Qed.

(** ** Prefixes of digit lists *)
Lemma dal_app k l : (k <= length l)%nat -> dval l = dal k l * B ^ (lenz l - Z.of_nat k) + dval (skipn k l).
Proof.
  revert l. induction k as [|k IH]; intros l H.
  - cbn. lia.
  - destruct l as [|x l]; [cbn in H; lia|]. cbn in H. cbn [dal skipn]. rewrite dval_cons, lenz_cons.
    rewrite (IH l) by lia.
    replace (1 + lenz l - Z.of_nat (S k)) with (lenz l - Z.of_nat k) by lia.
    assert (E : B ^ lenz l = B ^ Z.of_nat k * B ^ (lenz l - Z.of_nat k)).
    { rewrite <- pB_add by (unfold lenz; lia). f_equal. lia. }
    rewrite E. ring.
Qed.

Lemma dal_pad k l : (length l <= k)%nat -> dal k l = dval l * B ^ (Z.of_nat k - lenz l).
Proof.
  revert k. induction l as [|x l IH]; intros k H.
  - destruct k; cbn; lia.
  - destruct k as [|k]; [cbn in H; lia|]. cbn in H. cbn [dal]. rewrite (IH k) by lia.
    rewrite dval_cons, lenz_cons.
    replace (Z.of_nat (S k) - (1 + lenz l)) with (Z.of_nat k - lenz l) by lia.
    assert (E : B ^ Z.of_nat k = B ^ lenz l * B ^ (Z.of_nat k - lenz l)).
    { rewrite <- pB_add by (unfold lenz; lia). f_equal. lia. }
    rewrite E. ring.
Qed.

Lemma dal_bound k l : Forall dig l -> 0 <= dal k l < B ^ Z.of_nat k.
Proof.
  revert l. induction k as [|k IH]; intros l H; [cbn; lia|].
  destruct l as [|x l]; cbn [dal].
  - pose proof (pB_pos' (Z.of_nat (S k)) ltac:(lia)). lia.
  - inversion H as [|? ? Hx Hl]; subst. specialize (IH l Hl). unfold dig in Hx.
    replace (Z.of_nat (S k)) with (1 + Z.of_nat k) by lia. rewrite pB_succ by lia.
    pose proof (pB_pos' (Z.of_nat k) ltac:(lia)). nia.
Qed.

Lemma dal_split j k l : (j <= k)%nat -> Forall dig l ->
  exists r, dal k l = dal j l * B ^ (Z.of_nat k - Z.of_nat j) + r /\ 0 <= r < B ^ (Z.of_nat k - Z.of_nat j) /\
            ((length l <= j)%nat -> r = 0).
Proof.
  revert k l. induction j as [|j IH]; intros k l H D.
  - exists (dal k l). cbn [dal]. replace (Z.of_nat k - Z.of_nat 0) with (Z.of_nat k) by lia.
    split; [lia|]. split; [apply dal_bound; exact D|].
    intro L. destruct l; [|cbn in L; lia]. destruct k; reflexivity.
  - destruct k as [|k]; [lia|]. destruct l as [|x l].
    + exists 0. cbn [dal]. pose proof (pB_pos' (Z.of_nat (S k) - Z.of_nat (S j)) ltac:(lia)). repeat split; lia.
    + inversion D as [|? ? Hx Hl]; subst. destruct (IH k l ltac:(lia) Hl) as (r & E & R & Z0).
      exists r. cbn [dal length].
      replace (Z.of_nat (S k) - Z.of_nat (S j)) with (Z.of_nat k - Z.of_nat j) by lia.
      split; [|split; [exact R|intro; apply Z0; lia]]. rewrite E.
      assert (E2 : B ^ Z.of_nat k = B ^ Z.of_nat j * B ^ (Z.of_nat k - Z.of_nat j)).
      { rewrite <- pB_add by lia. f_equal. lia. }
      rewrite E2. ring.
Qed.

Lemma dal_full l : dal (length l) l = dval l.
Proof. rewrite dal_pad by lia. unfold lenz. rewrite Z.sub_diag. cbn. lia. Qed.

(** ** Subtraction of a multiple of the divisor *)

(** Bound on entry [j] by the number of subtractions that may have touched it. *)
Fixpoint cellk (n : nat) (l : list Z) : Prop :=
  match l with
  | [] => True
  | x :: t => Z.abs x <= 9999 * (1 + 10004 * Z.of_nat n) /\ cellk (pred n) t
  end.

Lemma cellk_mono n m l : (n <= m)%nat -> cellk n l -> cellk m l.
Proof.
  revert n m. induction l as [|x l IH]; intros n m H C; [exact I|]. cbn [cellk] in *. destruct C as [C1 C2].
  split; [lia|]. apply (IH (pred n)); [lia|exact C2].
Qed.

Lemma cellk_cellb n l : cellk n l -> cellb (1 + 10004 * Z.of_nat n) l.
Proof.
  revert n. induction l as [|x l IH]; intros n C; constructor; cbn [cellk] in C; destruct C as [C1 C2]; [exact C1|].
  apply (cellb_mono (1 + 10004 * Z.of_nat (pred n))); [lia|]. apply IH. exact C2.
Qed.

Lemma dig_cellk n l : Forall dig l -> cellk n l.
Proof.
  revert n. induction l as [|x l IH]; intros n D; [exact I|].
  inversion D as [|? ? Hx Hl]; subst. unfold dig in Hx. cbn [cellk]. split; [lia|]. apply IH. exact Hl.
Qed.

Lemma sub_mul_spec c q k rem ds : Forall dig ds -> Z.abs q <= 30000 -> 0 <= k -> k + Z.abs q <= 214748 ->
  cellb k rem ->
  exists rem', sub_mul c q rem ds = Ret rem' /\ length rem' = length rem /\
    dval rem' = dval rem - q * dal (length rem) ds /\ cellb (k + Z.abs q) rem' /\
    (Z.abs q <= 10004 -> cellk (pred (length ds)) rem -> cellk (length ds) rem').
Proof.
  intros Dd Q K KQ. revert ds Dd. induction rem as [|x rem IH]; intros ds Dd C.
  - exists []. split; [reflexivity|]. split; [reflexivity|]. split; [cbn; lia|]. split; [constructor|].
    intros; exact I.
  - inversion C as [|? ? Cx Cr]; subst. destruct ds as [|d ds].
    + exists (x :: rem). cbn [sub_mul dal length]. split; [reflexivity|]. split; [reflexivity|]. split; [lia|].
      split; [apply (cellb_mono k); [lia|exact C]|]. intros _ H. exact H.
    + inversion Dd as [|? ? Hd Hds]; subst. unfold dig in Hd.
      destruct (IH ds Hds Cr) as (r' & E & L & V & C' & CK).
      cbn [sub_mul]. assert (Z.abs (q * d) <= 9999 * Z.abs q) by nia.
      rewrite i32_ok by nia. cbn [bind]. rewrite i32_ok by nia. cbn [bind]. rewrite E. cbn [bind].
      exists (x - q * d :: r'). split; [reflexivity|]. split; [cbn; lia|]. split; [|split].
      * cbn [length dal]. rewrite !dval_cons. rewrite V.
        assert (EL : lenz r' = lenz rem) by (unfold lenz; lia). rewrite EL.
        change (Z.of_nat (length rem)) with (lenz rem). ring.
      * constructor; [nia|exact C'].
      * intros Hq. cbn [length pred cellk]. intros [A1 A2]. split; [nia|]. apply CK; [exact Hq|exact A2].
Qed.

(** The head entry too; it is not bounded by [k]. *)
Lemma sub_mul_head c q k r0 rem d0 ds : Forall dig (d0 :: ds) -> Z.abs q <= 30000 -> 0 <= k -> k + Z.abs q <= 214748 ->
  cellb k rem -> Z.abs r0 <= 300000000 ->
  exists s0 rem', sub_mul c q (r0 :: rem) (d0 :: ds) = Ret (s0 :: rem') /\ length rem' = length rem /\
    dval (s0 :: rem') = dval (r0 :: rem) - q * dal (S (length rem)) (d0 :: ds) /\ cellb (k + Z.abs q) rem' /\
    (Z.abs q <= 10004 -> cellk (pred (length ds)) rem -> cellk (length ds) rem').
Proof.
  intros Dd Q K KQ C R. inversion Dd as [|? ? Hd Hds]; subst. unfold dig in Hd.
  destruct (sub_mul_spec c q k rem ds Hds Q K KQ C) as (r' & E & L & V & C' & CK).
  exists (r0 - q * d0), r'. cbn [sub_mul]. assert (Z.abs (q * d0) <= 9999 * Z.abs q) by nia.
  rewrite i32_ok by nia. cbn [bind]. rewrite i32_ok by nia. cbn [bind]. rewrite E. cbn [bind].
  split; [reflexivity|]. split; [exact L|]. split; [|split; [exact C'|exact CK]].
  cbn [dal]. rewrite !dval_cons. rewrite V.
  assert (EL : lenz r' = lenz rem) by (unfold lenz; lia). rewrite EL.
  change (Z.of_nat (length rem)) with (lenz rem). ring.
Qed.

(** ** The wrapping fold *)
Lemma wrap_wrap a b : wrap 32 (a + wrap 32 b) = wrap 32 (a + b).
Proof.
  unfold wrap. change (2 ^ (32 - 1)) with 2147483648. change (2 ^ 32) with 4294967296.
  replace (a + ((b + 2147483648) mod 4294967296 - 2147483648) + 2147483648)
    with (a + (b + 2147483648) mod 4294967296) by lia.
  rewrite Z.add_mod_idemp_r by lia. f_equal. f_equal. lia.
Qed.

Lemma wrap32_id x : -2147483648 <= x <= 2147483647 -> wrap 32 x = x.
Proof.
  intro H. unfold wrap. change (2 ^ (32 - 1)) with 2147483648. change (2 ^ 32) with 4294967296.
  rewrite Z.mod_small; lia.
Qed.

Lemma fits32 x : fits 32 x = true <-> -2147483648 <= x <= 2147483647.
Proof. unfold fits. change (2 ^ (32 - 1)) with 2147483648. lia. Qed.

(** [r1 + r0 * NBASE] with an exact result in range: right in a release build; in a debug build it
    may panic when the product alone is out of range. *)
Lemma fold_spec {A} c r0 r1 (k : Z -> outcome A) : Z.abs (r1 + r0 * B) <= 300000000 ->
  (p <- i32 c (r0 * B) ;; s <- i32 c (r1 + p) ;; k s) = k (r1 + r0 * B) \/
  (dbg c = true /\ 214748 < Z.abs r0 /\ (p <- i32 c (r0 * B) ;; s <- i32 c (r1 + p) ;; k s) = Panic WArith).
Proof.
  intro H. destruct (fits 32 (r0 * B)) eqn:E.
  - left. apply fits32 in E. rewrite i32_ok by exact E. cbn [bind]. rewrite i32_ok by lia. reflexivity.
  - assert (N : 214748 < Z.abs r0).
    { destruct (Z.le_gt_cases (Z.abs r0) 214748); [|lia].
      assert (T : fits 32 (r0 * B) = true) by (apply fits32; lia). congruence. }
    unfold i32 at 1 3. unfold arith. rewrite E. destruct (dbg c) eqn:Ed.
    + right. repeat split; auto.
    + left. cbn [bind]. unfold i32, arith. rewrite wrap_wrap, (wrap32_id (r1 + r0 * B)) by lia.
      destruct (fits 32 (r1 + wrap 32 (r0 * B))) eqn:E2; [|rewrite Ed; reflexivity].
      cbn [bind]. apply fits32 in E2. pose proof (wrap32_id _ E2) as W. rewrite wrap_wrap, wrap32_id in W by lia.
      rewrite <- W. reflexivity.
Qed.
