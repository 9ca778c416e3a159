(** * FltFacts: error bounds of the float model. *)
From Coq Require Import ZArith QArith Qabs Lia Lqa.
From Verif Require Import Flt.
Open Scope Z_scope.

Lemma rne_err n d : 0 < d -> Z.abs (2 * (rne n d * d - n)) <= d.
Proof.
  intro D. unfold rne. pose proof (Z.div_mod n d ltac:(lia)) as E. pose proof (Z.mod_pos_bound n d D) as M.
  set (q := n / d) in *. set (r := n mod d) in *.
  destruct (Z.ltb_spec (2 * r) d); [|destruct (Z.ltb_spec d (2 * r)); [|destruct (Z.even q)]]; nia.
Qed.

Lemma flexp_low x : Qnum x <> 0 ->
  2 ^ 52 * (QDen x * 2 ^ Z.max 0 (flexp x)) <= Z.abs (Qnum x) * 2 ^ Z.max 0 (- flexp x).
Proof.
  intro N. unfold flexp. set (n := Z.abs (Qnum x)). assert (Hn : 0 < n) by (unfold n; lia).
  set (d := QDen x). assert (Hd : 0 < d) by (unfold d; lia).
  pose proof (Z.log2_spec n Hn) as [N1 N2]. pose proof (Z.log2_spec d Hd) as [D1 D2].
  pose proof (Z.log2_nonneg n). pose proof (Z.log2_nonneg d).
  set (a := Z.log2 n) in *. set (b := Z.log2 d) in *. set (k := a - b).
  (* every case: 2^(e+52) * d <= n, in integers *)
  assert (G : forall e, (d * 2 ^ Z.max 0 (e + 52) <= n * 2 ^ Z.max 0 (- (e + 52))) ->
    2 ^ 52 * (d * 2 ^ Z.max 0 e) <= n * 2 ^ Z.max 0 (- e)).
  { intros e H1. destruct (Z_le_dec 0 e).
    - rewrite (Z.max_r 0 e), (Z.max_l 0 (- e)) by lia. rewrite (Z.max_r 0 (e + 52)), (Z.max_l 0 (- (e + 52))) in H1 by lia.
      rewrite Z.pow_add_r in H1 by lia. lia.
    - destruct (Z_le_dec 0 (e + 52)).
      + rewrite (Z.max_l 0 e), (Z.max_r 0 (- e)) by lia. rewrite (Z.max_r 0 (e + 52)), (Z.max_l 0 (- (e + 52))) in H1 by lia.
        replace 52 with (e + 52 + - e) at 1 by lia. rewrite Z.pow_add_r by lia. pose proof (Z.pow_pos_nonneg 2 (- e) ltac:(lia) ltac:(lia)). nia.
      + rewrite (Z.max_l 0 e), (Z.max_r 0 (- e)) by lia. rewrite (Z.max_l 0 (e + 52)), (Z.max_r 0 (- (e + 52))) in H1 by lia.
        replace (- e) with (52 + - (e + 52)) by lia. rewrite Z.pow_add_r by lia. lia. }
  destruct (Z.leb_spec (d * 2 ^ Z.max 0 k) (n * 2 ^ Z.max 0 (- k))) as [L|L]; apply G.
  - replace (k - 52 + 52) with k by lia. exact L.
  - replace (k - 53 + 52) with (k - 1) by lia. clear G L.
    (* n >= 2^a, d < 2^(b+1): d * 2^(k-1) < 2^(b+1+k-1) = 2^a <= n *)
    unfold k. replace (Z.succ b) with (b + 1) in * by lia.
    destruct (Z_le_dec 0 (a - b - 1)).
    + rewrite (Z.max_r 0), (Z.max_l 0) by lia. pose proof (Z.pow_pos_nonneg 2 (a - b - 1) ltac:(lia) ltac:(lia)).
      assert (E : 2 ^ a = 2 ^ (b + 1) * 2 ^ (a - b - 1)) by (rewrite <- Z.pow_add_r by lia; f_equal; lia). nia.
    + rewrite (Z.max_l 0), (Z.max_r 0) by lia. pose proof (Z.pow_pos_nonneg 2 (- (a - b - 1)) ltac:(lia) ltac:(lia)).
      assert (E : 2 ^ (b + 1) = 2 ^ a * 2 ^ (- (a - b - 1))) by (rewrite <- Z.pow_add_r by lia; f_equal; lia). nia.
Qed.

Definition ulp53 : Q := 1 # 9007199254740992.

(** The only fact used about rounding: a relative error of at most 2^-53. *)
Lemma fl_err x : (Qabs (fl x - x) <= ulp53 * Qabs x)%Q.
Proof.
  unfold fl. destruct (Z.eqb_spec (Qnum x) 0) as [E|N].
  { assert (X : x == 0) by (unfold Qeq; cbn; lia). rewrite X. discriminate. }
  pose proof (flexp_low x N) as L. set (e := flexp x) in *.
  destruct x as [n d]. cbn [Qnum Qden] in *.
  set (N' := n * 2 ^ Z.max 0 (- e)) in *. set (D' := Zpos d * 2 ^ Z.max 0 e) in *.
  assert (PD : 0 < D') by (unfold D'; pose proof (Z.pow_pos_nonneg 2 (Z.max 0 e) ltac:(lia) ltac:(lia)); nia).
  assert (AN : Z.abs n * 2 ^ Z.max 0 (- e) = Z.abs N').
  { unfold N'. rewrite Z.abs_mul. f_equal. symmetry. apply Z.abs_eq. apply Z.pow_nonneg. lia. }
  rewrite AN in L. pose proof (rne_err N' D' PD) as R. set (m := rne N' D') in *.
  change (2 ^ 52) with 4503599627370496 in L.
  set (y := if 0 <=? e then inject_Z (m * 2 ^ e) else m # Z.to_pos (2 ^ - e)).
  (* y = m * 2^e, x = N'/D' * 2^e *)
  unfold ulp53.
  destruct (Z.leb_spec 0 e) as [E0|E0]; unfold y; clear y.
  - unfold D', N' in *. rewrite (Z.max_l 0 (- e)), (Z.max_r 0 e) in * by lia. rewrite Z.pow_0_r, Z.mul_1_r in *.
    set (p := 2 ^ e) in *. assert (0 < p) by (apply Z.pow_pos_nonneg; lia).
    unfold Qle, Qabs, Qminus, Qplus, Qopp, Qmult, inject_Z. cbn [Qnum Qden]. rewrite ?Pos.mul_1_l, ?Pos2Z.inj_mul.
    assert (A : Z.abs (2 * (m * (Zpos d * p) - n)) * 4503599627370496 <= Z.abs n) by lia.
    replace (m * p * Z.pos d + - n * 1) with (m * (Zpos d * p) - n) by ring. nia.
  - unfold D', N' in *. rewrite (Z.max_r 0 (- e)), (Z.max_l 0 e) in * by lia. rewrite Z.pow_0_r, Z.mul_1_r in *.
    set (p := 2 ^ - e) in *. assert (0 < p) by (apply Z.pow_pos_nonneg; lia).
    unfold Qle, Qabs, Qminus, Qplus, Qopp, Qmult, inject_Z. cbn [Qnum Qden]. rewrite ?Pos2Z.inj_mul, ?Z2Pos.id by lia.
    assert (A : Z.abs (2 * (m * Zpos d - n * p)) * 4503599627370496 <= Z.abs n * p).
    { replace (Z.abs n * p) with (Z.abs (n * p)) by (rewrite Z.abs_mul; f_equal; apply Z.abs_eq; lia). lia. }
    replace (m * Z.pos d + - n * p) with (m * Zpos d - n * p) by ring. nia.
Qed.
