(** * Arith: lemmas about the outcome monad and fixed-width arithmetic. *)
From Coq Require Import ZArith List Bool Lia.
From Verif Require Import Base Var.
Import ListNotations.
Open Scope Z_scope.

Lemma wrap16_id x : -32768 <= x <= 32767 -> wrap 16 x = x.
Proof.
  intro H. unfold wrap. change (2 ^ (16 - 1)) with 32768. change (2 ^ 16) with 65536.
  rewrite Z.mod_small; lia.
Qed.

Lemma as_i16_id x : -32768 <= x <= 32767 -> as_i16 x = x.
Proof. apply wrap16_id. Qed.

Lemma i16_ok c x : -32768 <= x <= 32767 -> i16 c x = Ret x.
Proof.
  intro H. unfold i16, arith, fits. change (2 ^ (16 - 1)) with 32768.
  replace (- (32768) <=? x) with true by (symmetry; apply Z.leb_le; lia).
  replace (x <? 32768) with true by (symmetry; apply Z.ltb_lt; lia). reflexivity.
Qed.

Lemma i32_ok c x : -2147483648 <= x <= 2147483647 -> i32 c x = Ret x.
Proof.
  intro H. unfold i32, arith, fits. change (2 ^ (32 - 1)) with 2147483648.
  replace (- (2147483648) <=? x) with true by (symmetry; apply Z.leb_le; lia).
  replace (x <? 2147483648) with true by (symmetry; apply Z.ltb_lt; lia). reflexivity.
Qed.

Lemma dassert_ok c b : b = true -> dassert c b = Ret tt.
Proof. intros ->. unfold dassert. now rewrite andb_false_r. Qed.

Lemma bind_ret {A B} (a : A) (f : A -> outcome B) : bind (Ret a) f = f a.
Proof. reflexivity. Qed.

Lemma nan_ok c v : sign v <> SNaN -> dassert c (negb (is_nan v)) = Ret tt.
Proof. intro H. apply dassert_ok. unfold is_nan. destruct (sign v); try reflexivity. congruence. Qed.

Lemma index_ok {A} (l : list A) i a : 0 <= i -> nth_error l (Z.to_nat i) = Some a -> index l i = Ret a.
Proof.
  intros H E. unfold index. destruct (i <? 0) eqn:L; [apply Z.ltb_lt in L; lia|]. now rewrite E.
Qed.

Lemma get_ok {A} (l : list A) i a : 0 <= i -> nth_error l (Z.to_nat i) = Some a -> get_unchecked l i = Ret a.
Proof.
  intros H E. unfold get_unchecked. destruct (i <? 0) eqn:L; [apply Z.ltb_lt in L; lia|]. now rewrite E.
Qed.

Lemma nth_error_split_at {A} (l : list A) i : 0 <= i < lenz l ->
  exists a, nth_error l (Z.to_nat i) = Some a /\
            l = firstn (Z.to_nat i) l ++ a :: skipn (Z.to_nat (i + 1)) l.
Proof.
  intro H. destruct (nth_error l (Z.to_nat i)) as [a|] eqn:E.
  - exists a. split; [reflexivity|].
    replace (Z.to_nat (i + 1)) with (S (Z.to_nat i)) by lia.
    clear H. revert E. generalize (Z.to_nat i). intro n. revert l.
    induction n as [|n IH]; intros [|x l] E; cbn in E; try discriminate.
    + injection E as ->. reflexivity.
    + cbn. f_equal. now apply IH.
  - apply nth_error_None in E. unfold lenz in H. lia.
Qed.

Lemma set_nth_split {A} (a b : list A) x y i : length a = i -> set_nth (a ++ x :: b) i y = a ++ y :: b.
Proof.
  revert i. induction a as [|z a IH]; intros [|i] E; cbn in *; try discriminate; [reflexivity|].
  f_equal. apply IH. lia.
Qed.

Lemma firstn_S_snoc {A} (l : list A) n a : nth_error l n = Some a -> firstn (S n) l = firstn n l ++ [a].
Proof.
  revert l. induction n as [|n IH]; intros [|x l] E; cbn in E; try discriminate.
  - injection E as ->. reflexivity.
  - change (firstn (S (S n)) (x :: l)) with (x :: firstn (S n) l). rewrite (IH l E). reflexivity.
Qed.
