(** * Codec: the byte layout. *)
From Coq Require Import ZArith QArith List Bool Lia.
From Verif Require Import Base Var Binary Spec QDec Digits Arith Strip.
Import ListNotations.
Open Scope Z_scope.

(** ** Masks and shifts as arithmetic *)
Lemma land_mask x k n mask : 0 <= k -> 0 <= n -> mask = (2 ^ n - 1) * 2 ^ k ->
  Z.land x mask = (x / 2 ^ k) mod 2 ^ n * 2 ^ k.
Proof.
  intros Hk Hn ->. rewrite <- Z.land_ones by exact Hn. rewrite <- Z.shiftr_div_pow2 by exact Hk.
  replace (2 ^ n - 1) with (Z.ones n) by (rewrite Z.ones_equiv; lia).
  apply Z.bits_inj'. intros i Hi. rewrite Z.land_spec.
  destruct (Z_lt_le_dec i k) as [L|L].
  - rewrite !Z.mul_pow2_bits_low by lia. apply andb_false_r.
  - rewrite !Z.mul_pow2_bits by lia. rewrite Z.land_spec, Z.shiftr_spec by lia.
    now replace (i - k + k) with i by lia.
Qed.

Lemma lor_add a b k : 0 <= k -> 0 <= b < 2 ^ k -> Z.lor (a * 2 ^ k) b = a * 2 ^ k + b.
Proof.
  intros Hk Hb. assert (E : Z.land (a * 2 ^ k) b = 0).
  { apply Z.bits_inj'. intros i Hi. rewrite Z.land_spec, Z.bits_0.
    destruct (Z_lt_le_dec i k) as [L|L].
    - now rewrite Z.mul_pow2_bits_low by lia.
    - destruct (Z.eq_dec b 0) as [->|N]; [rewrite Z.bits_0; apply andb_false_r|].
      rewrite (Z.bits_above_log2 b i); [apply andb_false_r|lia|].
      assert (Z.log2 b < k) by (apply Z.log2_lt_pow2; lia). lia. }
  rewrite Z.add_nocarry_lxor by exact E. rewrite Z.lxor_lor by exact E. reflexivity.
Qed.

Lemma land255 x : Z.land x 255 = x mod 256.
Proof. rewrite (land_mask x 0 8 255) by (try lia; reflexivity). now rewrite Z.div_1_r, Z.mul_1_r. Qed.

Lemma shr8 x : Z.shiftr x 8 = x / 256.
Proof. apply Z.shiftr_div_pow2. lia. Qed.
Lemma shr16 x : Z.shiftr x 16 = x / 256 / 256.
Proof. rewrite Z.shiftr_div_pow2 by lia. rewrite Z.div_div by lia. reflexivity. Qed.
Lemma shr24 x : Z.shiftr x 24 = x / 256 / 256 / 256.
Proof. rewrite Z.shiftr_div_pow2 by lia. rewrite !Z.div_div by lia. reflexivity. Qed.

Lemma le16_le x : le16 x = le_bytes 2 x.
Proof. unfold le16. rewrite !land255, shr8. reflexivity. Qed.
Lemma le32_le x : le32 x = le_bytes 4 x.
Proof. unfold le32. rewrite !land255, shr8, shr16, shr24. reflexivity. Qed.

Lemma le_bytes2_mod x : le_bytes 2 (x mod 65536) = le_bytes 2 x.
Proof.
  cbn [le_bytes]. change 65536 with (256 * 256).
  rewrite Z.rem_mul_r by lia.
  f_equal.
  - rewrite Z.mul_comm, Z.mod_add, Z.mod_mod by lia. reflexivity.
  - f_equal. rewrite Z.mul_comm, Z.div_add by lia.
    rewrite (Z.div_small (x mod 256)) by (apply Z.mod_pos_bound; lia). cbn [Z.add].
    apply Z.mod_mod. lia.
Qed.

Lemma lenz_le_bytes k x : lenz (le_bytes k x) = Z.of_nat k.
Proof. revert x. induction k as [|k IH]; intro x; [reflexivity|]. cbn [le_bytes]. rewrite lenz_cons, IH. lia. Qed.

Lemma encode_len_word c len : 0 <= len < 2 ^ 30 -> encode_len c len = len_word (be_varlen c) len.
Proof.
  intro H. unfold encode_len, len_word. destruct (be_varlen c).
  - rewrite (land_mask len 0 30 0x3FFFFFFF) by (try lia; reflexivity).
    change (2 ^ 0) with 1. rewrite Z.div_1_r, Z.mul_1_r, Z.mod_small by lia. now rewrite le32_le.
  - rewrite Z.shiftl_mul_pow2 by lia. change (2 ^ 2) with 4. rewrite le32_le.
    f_equal. lia.
Qed.

Lemma lor_bytes b0 b1 : 0 <= b0 < 256 -> Z.lor b0 (Z.shiftl b1 8) = b0 + 256 * b1.
Proof.
  intro H. rewrite Z.shiftl_mul_pow2 by lia. rewrite Z.lor_comm, lor_add by lia.
  change (2 ^ 8) with 256. lia.
Qed.

Lemma byte_bound x : 0 <= x mod 256 < 256.
Proof. apply Z.mod_pos_bound. lia. Qed.

Lemma word_le_bytes b0 b1 b2 b3 : 0 <= b0 < 256 -> 0 <= b1 < 256 -> 0 <= b2 < 256 ->
  word_le b0 b1 b2 b3 = b0 + 256 * (b1 + 256 * (b2 + 256 * b3)).
Proof.
  intros H0 H1 H2. unfold word_le. rewrite !Z.shiftl_mul_pow2 by lia.
  rewrite (Z.lor_comm (b2 * _)). 
  rewrite (lor_add b3 (b2 * 2 ^ 16) 24) by lia.
  rewrite (Z.lor_comm (b1 * _)).
  replace (b3 * 2 ^ 24 + b2 * 2 ^ 16) with ((b3 * 2 ^ 8 + b2) * 2 ^ 16) by lia.
  rewrite (lor_add _ (b1 * 2 ^ 8) 16) by lia.
  rewrite Z.lor_comm.
  replace ((b3 * 2 ^ 8 + b2) * 2 ^ 16 + b1 * 2 ^ 8) with (((b3 * 2 ^ 8 + b2) * 2 ^ 8 + b1) * 2 ^ 8) by lia.
  rewrite (lor_add _ b0 8) by lia. lia.
Qed.

Lemma split_word x : 0 <= x < 256 * 256 * 256 * 256 ->
  x mod 256 + 256 * (x / 256 mod 256 + 256 * (x / 256 / 256 mod 256 + 256 * (x / 256 / 256 / 256 mod 256))) = x.
Proof.
  intro H.
  pose proof (Z.div_mod x 256 ltac:(lia)). pose proof (Z.div_mod (x / 256) 256 ltac:(lia)).
  pose proof (Z.div_mod (x / 256 / 256) 256 ltac:(lia)).
  rewrite (Z.mod_small (x / 256 / 256 / 256)).
  2: { rewrite !Z.div_div by lia. split; [apply Z.div_pos; lia|]. apply Z.div_lt_upper_bound; lia. }
  lia.
Qed.

Lemma get_0 {A} (a : A) l : get_unchecked (a :: l) 0 = Ret a.
Proof. reflexivity. Qed.
Lemma get_1 {A} (a b : A) l : get_unchecked (a :: b :: l) 1 = Ret b.
Proof. reflexivity. Qed.
Lemma get_2 {A} (a b d : A) l : get_unchecked (a :: b :: d :: l) 2 = Ret d.
Proof. reflexivity. Qed.
Lemma get_3 {A} (a b d e : A) l : get_unchecked (a :: b :: d :: e :: l) 3 = Ret e.
Proof. reflexivity. Qed.

Lemma nth_len_word c len t : 0 <= len < 2 ^ 30 -> read_len c (len_word (be_varlen c) len ++ t) = Ret len.
Proof.
  intro H. change (2 ^ 30) with 1073741824 in H. unfold read_len, len_word, decode_len. destruct (be_varlen c).
  - cbn [le_bytes rev app]. rewrite get_0, get_1, get_2, get_3. cbn [bind].
    rewrite word_le_bytes by apply byte_bound. rewrite split_word by lia.
    rewrite (land_mask len 0 30 0x3FFFFFFF) by (try lia; reflexivity).
    change (2 ^ 0) with 1. change (2 ^ 30) with 1073741824. rewrite Z.div_1_r, Z.mul_1_r, Z.mod_small by lia. reflexivity.
  - cbn [le_bytes app]. rewrite get_0, get_1, get_2, get_3. cbn [bind].
    rewrite word_le_bytes by apply byte_bound. rewrite split_word by lia.
    rewrite Z.shiftr_div_pow2 by lia. change (2 ^ 2) with 4.
    rewrite Z.mul_comm, Z.div_mul by lia.
    rewrite (land_mask len 0 30 0x3FFFFFFF) by (try lia; reflexivity).
    change (2 ^ 0) with 1. change (2 ^ 30) with 1073741824. rewrite Z.div_1_r, Z.mul_1_r, Z.mod_small by lia. reflexivity.
Qed.

Lemma len_word_4 be len : exists b0 b1 b2 b3, len_word be len = [b0; b1; b2; b3].
Proof. unfold len_word. destruct be; cbn; eauto. Qed.

(** ** Storable variables *)
Record storable (v : var) : Prop := {
  so_digits : Forall dig (digits v);
  so_nan : sign v <> SNaN;
  so_weight : -32768 <= weight v <= 32767;
  so_scale : 0 <= dscale v <= 16383;
  so_len : ndigits v <= 100000000
}.

Lemma canon_ndigits v : canon v -> ndigits v <= 40000.
Proof.
  intros [S W Sc [k F]]. destruct (digits v) as [|d t] eqn:E.
  - unfold ndigits. rewrite E, lenz_nil. lia.
  - assert (NE : digits v <> []) by congruence.
    destruct (Z_le_gt_dec (ndigits v) 40000) as [L|L]; [exact L|exfalso].
    pose proof (last_nz_mod (digits v) (st_digits v S) (st_last v S) NE) as M.
    unfold vval in F. rewrite dec_p10 in F. unfold lsd in F.
    set (e := 4 * (weight v + 1 - ndigits v) + dscale v) in *.
    assert (e <= -4) by (unfold e; lia).
    assert (F2 : (dec (smag v) e == dec (k * 10 ^ (- e)) e)%Q).
    { rewrite F. rewrite dec_shift by lia. rewrite Z.add_opp_diag_r. now rewrite dec_Z. }
    apply dec_eq_iff in F2.
    apply M. apply Z.mod_divide; [lia|].
    replace (- e) with (4 + (- e - 4)) in F2 by lia. rewrite Z.pow_add_r in F2 by lia.
    change (10 ^ 4) with 10000 in F2. unfold smag in F2. fold (mag v).
    exists (sgz (sign v) * k * 10 ^ (- e - 4)).
    unfold sgz in *. destruct (sign v); nia.
Qed.

Lemma canon_storable v : canon v -> storable v.
Proof.
  intro C. pose proof (canon_ndigits v C). destruct C as [S W Sc F]. constructor; try apply S; lia.
Qed.

Lemma short_header_spec c v : storable v -> can_be_short (weight v) (dscale v) = true ->
  short_header c (weight v) (dscale v) (sign v) =
  Ret (32768 + (if sgn_eqb (sign v) SNeg then 8192 else 0) + 128 * dscale v + weight v mod 128).
Proof.
  intros S H. unfold can_be_short in H.
  change NUMERIC_SHORT_DSCALE_MAX with 63 in H. change NUMERIC_SHORT_WEIGHT_MAX with 63 in H.
  change NUMERIC_SHORT_WEIGHT_MIN with (-64) in H. zb.
  pose proof (so_scale v S). pose proof (so_nan v S) as N.
  set (s := dscale v) in *. set (w := weight v) in *.
  assert (E1 : Z.land (Z.shiftl s NUMERIC_SHORT_DSCALE_SHIFT) 0xFFFF = s * 2 ^ 7).
  { rewrite Z.shiftl_mul_pow2 by (unfold NUMERIC_SHORT_DSCALE_SHIFT; lia). unfold NUMERIC_SHORT_DSCALE_SHIFT.
    rewrite (land_mask _ 0 16 0xFFFF) by (try lia; reflexivity). change (2 ^ 0) with 1.
    rewrite Z.div_1_r, Z.mul_1_r, Z.mod_small by lia. reflexivity. }
  assert (E2 : Z.land w NUMERIC_SHORT_WEIGHT_MASK = w mod 64).
  { unfold NUMERIC_SHORT_WEIGHT_MASK. rewrite (land_mask _ 0 6 0x3F) by (try lia; reflexivity).
    change (2 ^ 0) with 1. now rewrite Z.div_1_r, Z.mul_1_r. }
  assert (Hw : (if w <? 0 then NUMERIC_SHORT_WEIGHT_SIGN_MASK else 0) = (if w <? 0 then 1 else 0) * 2 ^ 6).
  { destruct (w <? 0); reflexivity. }
  assert (Hm : (if w <? 0 then 1 else 0) * 64 + w mod 64 = w mod 128).
  { destruct (w <? 0) eqn:L; zb.
    - rewrite <- (Z.mod_unique w 128 (-1) (w + 128)) by lia. rewrite <- (Z.mod_unique w 64 (-1) (w + 64)) by lia. lia.
    - rewrite !Z.mod_small by lia. lia. }
  assert (G : forall a, Z.lor (Z.lor (Z.lor (a * 2 ^ 13) (s * 2 ^ 7)) ((if w <? 0 then 1 else 0) * 2 ^ 6)) (w mod 64)
              = a * 8192 + 128 * s + w mod 128).
  { intro a. rewrite (lor_add a (s * 2 ^ 7) 13) by lia.
    replace (a * 2 ^ 13 + s * 2 ^ 7) with ((a * 64 + s) * 2 ^ 7) by lia.
    rewrite (lor_add _ _ 7) by (destruct (w <? 0); lia).
    pose proof (Z.mod_pos_bound w 64 ltac:(lia)).
    replace ((a * 64 + s) * 2 ^ 7 + (if w <? 0 then 1 else 0) * 2 ^ 6)
      with (((a * 64 + s) * 2 + (if w <? 0 then 1 else 0)) * 2 ^ 6) by lia.
    rewrite (lor_add _ _ 6) by lia. lia. }
  unfold short_header. destruct (sign v); [| |congruence]; rewrite E1, E2, Hw; cbn [sgn_eqb].
  - change NUMERIC_SHORT with (4 * 2 ^ 13). rewrite G. f_equal.
  - change (Z.lor NUMERIC_SHORT NUMERIC_SHORT_SIGN_MASK) with (5 * 2 ^ 13). rewrite G. f_equal.
Qed.

Lemma long_header_spec v : storable v ->
  long_header (dscale v) (sign v) = (if sgn_eqb (sign v) SNeg then 16384 else 0) + dscale v.
Proof.
  intro S. pose proof (so_scale v S). pose proof (so_nan v S) as N. unfold long_header.
  assert (E1 : Z.land (dscale v) NUMERIC_DSCALE_MASK = dscale v).
  { unfold NUMERIC_DSCALE_MASK. rewrite (land_mask _ 0 14 0x3FFF) by (try lia; reflexivity). change (2 ^ 0) with 1.
    rewrite Z.div_1_r, Z.mul_1_r, Z.mod_small by lia. reflexivity. }
  rewrite E1. destruct (sign v); [| |congruence]; cbn [sgn_eqb sgn_bits].
  - change NUMERIC_POS with (0 * 2 ^ 14). now rewrite lor_add by lia.
  - change NUMERIC_NEG with (1 * 2 ^ 14). now rewrite lor_add by lia.
Qed.

Lemma land_ffff x : 0 <= x < 65536 -> Z.land x 0xFFFF = x.
Proof.
  intro H. rewrite (land_mask _ 0 16 0xFFFF) by (try lia; reflexivity). change (2 ^ 0) with 1.
  rewrite Z.div_1_r, Z.mul_1_r, Z.mod_small by lia. reflexivity.
Qed.

Lemma flat_le ds : flat_map digit_bytes ds = flat_map (le_bytes 2) ds.
Proof. induction ds as [|d t IH]; [reflexivity|]. cbn [flat_map]. rewrite IH. unfold digit_bytes. now rewrite le16_le. Qed.

Lemma lenz_flat ds : lenz (flat_map (le_bytes 2) ds) = 2 * lenz ds.
Proof.
  induction ds as [|d t IH]; [reflexivity|]. cbn [flat_map]. rewrite lenz_app, lenz_le_bytes, IH, lenz_cons. lia.
Qed.

Lemma short_form_can v : can_be_short (weight v) (dscale v) = short_form (to_number v).
Proof.
  unfold can_be_short, short_form. cbn [scale wt to_number].
  change NUMERIC_SHORT_DSCALE_MAX with 63. change NUMERIC_SHORT_WEIGHT_MAX with 63.
  change NUMERIC_SHORT_WEIGHT_MIN with (-64).
  destruct (dscale v <=? 63), (weight v <=? 63), (-64 <=? weight v); reflexivity.
Qed.

Theorem encode_spec c v : storable v -> encode c v = Ret (layout (be_varlen c) (to_number v)).
Proof.
  intro S. unfold encode. rewrite (as_i16_id (weight v)) by apply S.
  rewrite (land_ffff (dscale v)) by (pose proof (so_scale v S); lia).
  pose proof (so_len v S) as L. pose proof (lenz_nonneg (digits v)) as L0. fold (ndigits v) in L0.
  rewrite flat_le.
  unfold layout, header. rewrite <- short_form_can. cbn [neg scale wt digs to_number].
  destruct (can_be_short (weight v) (dscale v)) eqn:E.
  - rewrite (short_header_spec c v S E). cbn [bind]. rewrite le16_le.
    fold (@lenz Z (le_bytes 2 (32768 + (if sgn_eqb (sign v) SNeg then 8192 else 0) + 128 * dscale v + weight v mod 128) ++ flat_map (le_bytes 2) (digits v))).
    rewrite lenz_app, lenz_le_bytes, lenz_flat. fold (ndigits v).
    rewrite encode_len_word by (change (2 ^ 30) with 1073741824; unfold NUMERIC_HEADER_SIZE_SHORT, NUMERIC_DIGIT_SIZE; lia).
    do 3 f_equal. unfold NUMERIC_HEADER_SIZE_SHORT, NUMERIC_DIGIT_SIZE. lia.
  - rewrite (long_header_spec v S), !le16_le.
    rewrite le_bytes2_mod.
    fold (@lenz Z ((le_bytes 2 ((if sgn_eqb (sign v) SNeg then 16384 else 0) + dscale v) ++ le_bytes 2 (weight v)) ++ flat_map (le_bytes 2) (digits v))).
    rewrite !lenz_app, !lenz_le_bytes, lenz_flat. fold (ndigits v).
    rewrite encode_len_word by (change (2 ^ 30) with 1073741824; unfold NUMERIC_HEADER_SIZE, NUMERIC_DIGIT_SIZE; lia).
    rewrite <- app_assoc. f_equal. f_equal. f_equal. unfold NUMERIC_HEADER_SIZE, NUMERIC_DIGIT_SIZE. lia.
Qed.

(** ** Decoding *)
Lemma read_header_word be len h t : 0 <= h < 65536 ->
  read_header (len_word be len ++ le_bytes 2 h ++ t) = Ret h.
Proof.
  intro H. destruct (len_word_4 be len) as (b0 & b1 & b2 & b3 & ->).
  unfold read_header, read_u16. cbn [app le_bytes].
  change (4 + 1) with 5.
  change (get_unchecked (b0 :: b1 :: b2 :: b3 :: h mod 256 :: h / 256 mod 256 :: t) 4) with (Ret (h mod 256)).
  change (get_unchecked (b0 :: b1 :: b2 :: b3 :: h mod 256 :: h / 256 mod 256 :: t) 5) with (Ret (h / 256 mod 256)).
  cbn [bind]. rewrite lor_bytes by apply byte_bound. f_equal.
  rewrite (Z.mod_small (h / 256)).
  - pose proof (Z.div_mod h 256 ltac:(lia)). lia.
  - split; [apply Z.div_pos; lia|apply Z.div_lt_upper_bound; lia].
Qed.

Lemma read_weight_word be len h w t :
  read_u16 (len_word be len ++ le_bytes 2 h ++ le_bytes 2 w ++ t) 6 = Ret (w mod 65536).
Proof.
  destruct (len_word_4 be len) as (b0 & b1 & b2 & b3 & ->).
  unfold read_u16. cbn [app le_bytes].
  change (6 + 1) with 7.
  change (get_unchecked (b0 :: b1 :: b2 :: b3 :: h mod 256 :: h / 256 mod 256 :: w mod 256 :: w / 256 mod 256 :: t) 6) with (Ret (w mod 256)).
  change (get_unchecked (b0 :: b1 :: b2 :: b3 :: h mod 256 :: h / 256 mod 256 :: w mod 256 :: w / 256 mod 256 :: t) 7) with (Ret (w / 256 mod 256)).
  cbn [bind]. rewrite lor_bytes by apply byte_bound. f_equal.
  change 65536 with (256 * 256). rewrite Z.rem_mul_r by lia. lia.
Qed.

Lemma take_digits_flat ds t : Forall dig ds ->
  take_digits (length ds) (flat_map (le_bytes 2) ds ++ t) = Ret ds.
Proof.
  induction 1 as [|d l Hd Hl IH]; [reflexivity|].
  change (flat_map (le_bytes 2) (d :: l) ++ t)
    with (d mod 256 :: d / 256 mod 256 :: (flat_map (le_bytes 2) l ++ t)).
  cbn [length take_digits]. rewrite IH. cbn [bind].
  rewrite lor_bytes by apply byte_bound. unfold dig in Hd.
  replace (d mod 256 + 256 * (d / 256 mod 256)) with d.
  - now rewrite as_i16_id by lia.
  - rewrite (Z.mod_small (d / 256)).
    + pose proof (Z.div_mod d 256 ltac:(lia)). lia.
    + split; [apply Z.div_pos; lia|apply Z.div_lt_upper_bound; lia].
Qed.

Lemma read_digits_app p ds off n : Forall dig ds -> lenz p = off -> lenz ds = n ->
  read_digits (p ++ flat_map (le_bytes 2) ds) off n = Ret ds.
Proof.
  intros D E1 E2. unfold read_digits, NUMERIC_DIGIT_SIZE. rewrite lenz_app, lenz_flat, E1, E2.
  replace (off + 2 * n <? off + n * 2) with false by (symmetry; apply Z.ltb_ge; lia).
  subst off n. rewrite !to_nat_lenz. rewrite skipn_app, skipn_all, Nat.sub_diag. cbn [skipn app].
  rewrite <- (app_nil_r (flat_map (le_bytes 2) ds)). now apply take_digits_flat.
Qed.

(** reading the fields of a header word *)
Lemma flag_short x : 0 <= x < 16384 -> flag_bits (32768 + x) = NUMERIC_SHORT.
Proof.
  intro H. unfold flag_bits, NUMERIC_SIGN_MASK. rewrite (land_mask _ 14 2 0xC000) by (try lia; reflexivity).
  change (2 ^ 14) with 16384. change (2 ^ 2) with 4.
  replace (32768 + x) with (x + 2 * 16384) by lia. rewrite Z.div_add, Z.div_small by lia. reflexivity.
Qed.
Lemma flag_long b x : 0 <= x < 16384 -> flag_bits ((if b : bool then 16384 else 0) + x) = if b then NUMERIC_NEG else NUMERIC_POS.
Proof.
  intro H. unfold flag_bits, NUMERIC_SIGN_MASK. rewrite (land_mask _ 14 2 0xC000) by (try lia; reflexivity).
  change (2 ^ 14) with 16384. change (2 ^ 2) with 4. destruct b.
  - replace (16384 + x) with (x + 1 * 16384) by lia. rewrite Z.div_add, Z.div_small by lia. reflexivity.
  - cbn [Z.add]. rewrite Z.div_small by lia. reflexivity.
Qed.
Lemma is_short_short x : 0 <= x < 16384 -> header_is_short (32768 + x) = true.
Proof.
  intro H. unfold header_is_short. rewrite (land_mask _ 15 1 0x8000) by (try lia; reflexivity).
  change (2 ^ 15) with 32768. change (2 ^ 1) with 2.
  replace (32768 + x) with (x + 1 * 32768) by lia. rewrite Z.div_add, Z.div_small by lia. reflexivity.
Qed.
Lemma is_short_long h : 0 <= h < 32768 -> header_is_short h = false.
Proof.
  intro H. unfold header_is_short. rewrite (land_mask _ 15 1 0x8000) by (try lia; reflexivity).
  change (2 ^ 15) with 32768. rewrite Z.div_small by lia. reflexivity.
Qed.

Section ShortFields.
  Variables (ng : bool) (s w : Z).
  Hypothesis Hs : 0 <= s <= 63.
  Hypothesis Hw : -64 <= w <= 63.
  Let h := 32768 + (if ng then 8192 else 0) + 128 * s + w mod 128.
  Let m := w mod 128.
  Lemma m_bound : 0 <= m < 128. Proof. apply Z.mod_pos_bound. lia. Qed.

  Lemma sf_scale : Z.shiftr (Z.land h NUMERIC_SHORT_DSCALE_MASK) NUMERIC_SHORT_DSCALE_SHIFT = s.
  Proof.
    pose proof m_bound as M. unfold NUMERIC_SHORT_DSCALE_MASK, NUMERIC_SHORT_DSCALE_SHIFT.
    rewrite (land_mask _ 7 6 0x1F80) by (try lia; reflexivity). rewrite Z.shiftr_div_pow2 by lia.
    change (2 ^ 7) with 128. change (2 ^ 6) with 64. rewrite Z.div_mul by lia.
    unfold h. fold m. replace (32768 + (if ng then 8192 else 0) + 128 * s + m)
      with (m + (s + (4 + (if ng then 1 else 0)) * 64) * 128) by (destruct ng; lia).
    rewrite Z.div_add, (Z.div_small m) by lia. cbn [Z.add]. rewrite Z.mod_add, Z.mod_small by lia. reflexivity.
  Qed.

  Lemma sf_sign : (if Z.land h NUMERIC_SHORT_SIGN_MASK =? 0 then SPos else SNeg) = (if ng then SNeg else SPos).
  Proof.
    pose proof m_bound as M. unfold NUMERIC_SHORT_SIGN_MASK.
    rewrite (land_mask _ 13 1 0x2000) by (try lia; reflexivity).
    change (2 ^ 13) with 8192. change (2 ^ 1) with 2.
    unfold h. fold m. replace (32768 + (if ng then 8192 else 0) + 128 * s + m)
      with ((128 * s + m) + (4 + (if ng then 1 else 0)) * 8192) by (destruct ng; lia).
    rewrite Z.div_add, (Z.div_small (128 * s + m)) by lia. destruct ng; reflexivity.
  Qed.

  Lemma sf_weight : weight_short h = w.
  Proof.
    pose proof m_bound as M. unfold weight_short, NUMERIC_SHORT_WEIGHT_SIGN_MASK, NUMERIC_SHORT_WEIGHT_MASK.
    change (Z.land (Z.lnot 63) 65535) with (1023 * 2 ^ 6).
    rewrite (land_mask h 6 1 0x40) by (try lia; reflexivity).
    rewrite (land_mask h 0 6 0x3F) by (try lia; reflexivity).
    change (2 ^ 6) with 64. change (2 ^ 1) with 2. change (2 ^ 0) with 1. rewrite Z.div_1_r, Z.mul_1_r.
    assert (Eh : h = m + (s + (4 + (if ng then 1 else 0)) * 64) * 2 * 64).
    { unfold h. fold m. destruct ng; lia. }
    assert (E1 : h mod 64 = m mod 64) by (rewrite Eh; apply Z.mod_add; lia).
    assert (E2 : (h / 64) mod 2 = m / 64).
    { rewrite Eh. rewrite Z.div_add by lia. rewrite Z.mod_add by lia. apply Z.mod_small.
      split; [apply Z.div_pos; lia|apply Z.div_lt_upper_bound; lia]. }
    rewrite E1, E2.
    destruct (Z_lt_le_dec w 0) as [L|L].
    - assert (Em : m = w + 128) by (unfold m; symmetry; apply (Z.mod_unique w 128 (-1)); lia).
      replace (m / 64) with 1 by (apply (Z.div_unique m 64 1 (w + 64)); lia).
      change (1 * 64 =? 0) with false. cbv iota.
      replace (m mod 64) with (w + 64) by (apply (Z.mod_unique m 64 1); lia).
      pose proof (lor_add 1023 (w + 64) 6 ltac:(lia) ltac:(change (2 ^ 6) with 64; lia)) as LA.
      change (1023 * 2 ^ 6) with 65472 in LA. try change (1023 * 64) with 65472. rewrite LA.
      unfold as_i16, wrap. change (2 ^ (16 - 1)) with 32768. change (2 ^ 16) with 65536. change (2 ^ 6) with 64.
      replace (65472 + (w + 64) + 32768) with ((w + 32768) + 1 * 65536) by lia.
      rewrite Z.mod_add, Z.mod_small by lia. lia.
    - assert (Em : m = w) by (unfold m; apply Z.mod_small; lia).
      rewrite Em, Z.div_small by lia. cbn [Z.mul Z.eqb]. rewrite Z.mod_small by lia. apply as_i16_id. lia.
  Qed.

  Lemma sf_eq : exists x, h = 32768 + x /\ 0 <= x < 16384.
  Proof.
    pose proof m_bound. exists ((if ng then 8192 else 0) + 128 * s + m). unfold h. fold m.
    destruct ng; split; lia.
  Qed.
End ShortFields.

Lemma as_i16_mod w : -32768 <= w <= 32767 -> as_i16 (w mod 65536) = w.
Proof.
  intro H. unfold as_i16, wrap. change (2 ^ (16 - 1)) with 32768. change (2 ^ 16) with 65536.
  rewrite Z.add_mod_idemp_l by lia. rewrite Z.mod_small by lia. lia.
Qed.

Lemma long_dscale b s : 0 <= s < 16384 -> Z.land ((if b : bool then 16384 else 0) + s) NUMERIC_DSCALE_MASK = s.
Proof.
  intro H. unfold NUMERIC_DSCALE_MASK. rewrite (land_mask _ 0 14 0x3FFF) by (try lia; reflexivity).
  change (2 ^ 0) with 1. change (2 ^ 14) with 16384. rewrite Z.div_1_r, Z.mul_1_r. destruct b.
  - replace (16384 + s) with (s + 1 * 16384) by lia. rewrite Z.mod_add, Z.mod_small by lia. reflexivity.
  - cbn [Z.add]. now apply Z.mod_small.
Qed.

Lemma layout_eq be v : storable v ->
  let b := sgn_eqb (sign v) SNeg in
  if can_be_short (weight v) (dscale v)
  then layout be (to_number v) =
       len_word be (6 + 2 * ndigits v)
       ++ le_bytes 2 (32768 + (if b then 8192 else 0) + 128 * dscale v + weight v mod 128)
       ++ flat_map (le_bytes 2) (digits v)
  else layout be (to_number v) =
       len_word be (8 + 2 * ndigits v)
       ++ le_bytes 2 ((if b then 16384 else 0) + dscale v)
       ++ le_bytes 2 (weight v)
       ++ flat_map (le_bytes 2) (digits v).
Proof.
  intro S. cbv zeta. unfold layout, header. rewrite <- short_form_can. cbn [neg scale wt digs to_number].
  destruct (can_be_short (weight v) (dscale v)) eqn:E.
  - match goal with |- context [Z.of_nat (length ?l)] => change (Z.of_nat (length l)) with (lenz l) end.
    rewrite lenz_app, lenz_le_bytes, lenz_flat. fold (ndigits v).
    now replace (4 + (Z.of_nat 2 + 2 * ndigits v)) with (6 + 2 * ndigits v) by lia.
  - rewrite le_bytes2_mod.
    match goal with |- context [Z.of_nat (length ?l)] => change (Z.of_nat (length l)) with (lenz l) end.
    rewrite !lenz_app, !lenz_le_bytes, lenz_flat. fold (ndigits v).
    rewrite <- app_assoc.
    now replace (4 + (Z.of_nat 2 + Z.of_nat 2 + 2 * ndigits v)) with (8 + 2 * ndigits v) by lia.
Qed.

Lemma lenz_len_word be len : lenz (len_word be len) = 4.
Proof. destruct (len_word_4 be len) as (a & b & d & e & ->). reflexivity. Qed.

(** everything the accessors see in a stored number *)
Lemma layout_read c v : storable v ->
  let x := layout (be_varlen c) (to_number v) in
  read_len c x = Ret (lenz x) /\
  exists h, read_header x = Ret h /\
    header_sign h = sign v /\ header_dscale h = dscale v /\
    (flag_bits h =? NUMERIC_NAN) = false /\
    lenz x = header_size h + 2 * ndigits v /\
    read_digits x (header_size h) (ndigits v) = Ret (digits v) /\
    (if header_is_short h then flag_bits h = NUMERIC_SHORT /\ weight_short h = weight v
     else (flag_bits h =? NUMERIC_SHORT) = false /\ exists w, read_u16 x 6 = Ret w /\ as_i16 w = weight v).
Proof.
  intros S. cbv zeta. pose proof (layout_eq (be_varlen c) v S) as L. cbv zeta in L.
  pose proof (so_len v S) as Ln. pose proof (lenz_nonneg (digits v)) as L0. fold (ndigits v) in L0.
  pose proof (so_scale v S) as Sc. pose proof (so_weight v S) as Wt. pose proof (so_nan v S) as N.
  set (b := sgn_eqb (sign v) SNeg) in *.
  assert (Eb : (if b then SNeg else SPos) = sign v) by (unfold b; destruct (sign v); cbn; congruence).
  destruct (can_be_short (weight v) (dscale v)) eqn:E; rewrite L; clear L.
  - assert (Hs : dscale v <= 63 /\ -64 <= weight v <= 63).
    { unfold can_be_short in E. change NUMERIC_SHORT_DSCALE_MAX with 63 in E.
      change NUMERIC_SHORT_WEIGHT_MAX with 63 in E. change NUMERIC_SHORT_WEIGHT_MIN with (-64) in E. zb. lia. }
    destruct Hs as [Hs Hw].
    rewrite !lenz_app, lenz_len_word, lenz_le_bytes, lenz_flat. fold (ndigits v).
    split.
    + rewrite nth_len_word by (change (2 ^ 30) with 1073741824; lia). f_equal. lia.
    + destruct (sf_eq b (dscale v) (weight v) ltac:(lia)) as (y & Ey & By).
      pose proof (sf_scale b (dscale v) (weight v) ltac:(lia)) as F1.
      pose proof (sf_sign b (dscale v) (weight v) ltac:(lia)) as F2.
      pose proof (sf_weight b (dscale v) (weight v) ltac:(lia)) as F3.
      set (h := 32768 + (if b then 8192 else 0) + 128 * dscale v + weight v mod 128) in *.
      exists h. rewrite read_header_word by lia.
      assert (FB : flag_bits h = NUMERIC_SHORT) by (rewrite Ey; now apply flag_short).
      assert (IS : header_is_short h = true) by (rewrite Ey; now apply is_short_short).
      unfold header_sign, header_dscale, header_size. rewrite FB, IS.
      repeat split; auto.
      * change (NUMERIC_SHORT =? NUMERIC_SHORT) with true. cbn match. rewrite F2. exact Eb.
      * unfold NUMERIC_HEADER_SIZE_SHORT. lia.
      * rewrite app_assoc. apply read_digits_app; [apply S| |reflexivity].
        rewrite lenz_app, lenz_len_word, lenz_le_bytes. reflexivity.
  - rewrite !lenz_app, lenz_len_word, !lenz_le_bytes, lenz_flat. fold (ndigits v).
    split.
    + rewrite nth_len_word by (change (2 ^ 30) with 1073741824; lia). f_equal. lia.
    + pose proof (flag_long b (dscale v) ltac:(lia)) as FB. pose proof (long_dscale b (dscale v) ltac:(lia)) as F1.
      set (h := (if b then 16384 else 0) + dscale v) in *.
      assert (Bh : 0 <= h < 32768) by (unfold h; destruct b; lia).
      assert (IS : header_is_short h = false) by (now apply is_short_long).
      exists h. rewrite read_header_word by lia.
      unfold header_sign, header_dscale, header_size. rewrite FB, IS.
      repeat split; auto.
      * rewrite <- Eb. destruct b; reflexivity.
      * destruct b; reflexivity.
      * unfold NUMERIC_HEADER_SIZE. lia.
      * rewrite !app_assoc. apply read_digits_app; [apply S| |reflexivity].
        rewrite !lenz_app, lenz_len_word, !lenz_le_bytes. reflexivity.
      * destruct b; reflexivity.
      * exists (weight v mod 65536). split; [apply read_weight_word|]. now apply as_i16_mod.
Qed.

Lemma as_binary_ok c v : storable v -> as_binary c (layout (be_varlen c) (to_number v)) = Ret tt.
Proof.
  intro S. destruct (layout_read c v S) as [R _]. unfold as_binary. destruct (dbg c) eqn:E.
  - rewrite R. cbn [bind]. apply dassert_ok. apply Z.eqb_refl.
  - cbn [bind]. apply dassert_ok. apply Z.eqb_refl.
Qed.

Lemma ndigits_of_ok c h n : 0 <= n -> ndigits_of c (h + 2 * n) h = Ret n.
Proof.
  intro H. unfold ndigits_of, NUMERIC_DIGIT_SIZE. replace (h <=? h + 2 * n) with true by (symmetry; apply Z.leb_le; lia).
  f_equal. replace (h + 2 * n - h) with (n * 2) by lia. apply Z.quot_mul. lia.
Qed.

Theorem into_var_spec c v : storable v -> into_var c (layout (be_varlen c) (to_number v)) = Ret v.
Proof.
  intro S. unfold into_var. rewrite (as_binary_ok c v S). cbn [bind].
  destruct (layout_read c v S) as (R & h & E1 & E2 & E3 & E4 & E5 & E6 & E7).
  rewrite E1, R. cbn [bind]. rewrite E5, ndigits_of_ok by apply lenz_nonneg. cbn [bind].
  destruct (header_is_short h).
  - destruct E7 as [_ ->]. cbn [bind]. rewrite E6. cbn [bind]. rewrite E2, E3. destruct v; reflexivity.
  - destruct E7 as (_ & w & -> & Ew). cbn [bind]. rewrite E6. cbn [bind]. rewrite E2, E3, Ew. destruct v; reflexivity.
Qed.

Theorem as_var_spec c v : storable v -> as_var c (layout (be_varlen c) (to_number v)) = Ret v.
Proof.
  intro S. unfold as_var. rewrite (as_binary_ok c v S). cbn [bind].
  destruct (layout_read c v S) as (R & h & E1 & E2 & E3 & E4 & E5 & E6 & E7).
  rewrite E1. cbn [bind]. unfold header_size, header_sign, header_dscale in *.
  destruct (header_is_short h).
  - destruct E7 as [F W]. rewrite F in *. change (NUMERIC_SHORT =? NUMERIC_SHORT) with true in *. cbn match in *.
    rewrite R. cbn [bind]. rewrite E5, ndigits_of_ok by apply lenz_nonneg. cbn [bind].
    rewrite E6. cbn [bind]. rewrite W, E2, E3. destruct v; reflexivity.
  - destruct E7 as (F & w & Hw & Ew). rewrite F, E4 in *.
    rewrite R. cbn [bind]. rewrite E5, ndigits_of_ok by apply lenz_nonneg. cbn [bind].
    rewrite Hw. cbn [bind]. rewrite E6. cbn [bind]. rewrite Ew, E2, E3. destruct v; reflexivity.
Qed.

Lemma num_is_nan_spec c v : storable v -> num_is_nan c (layout (be_varlen c) (to_number v)) = Ret false.
Proof.
  intro S. unfold num_is_nan. rewrite (as_binary_ok c v S). cbn [bind].
  destruct (layout_read c v S) as (R & h & E1 & E2 & E3 & E4 & _). rewrite E1. cbn [bind]. now rewrite E4.
Qed.
Lemma num_is_negative_spec c v : storable v ->
  num_is_negative c (layout (be_varlen c) (to_number v)) = Ret (is_negative v).
Proof.
  intro S. unfold num_is_negative. rewrite (as_binary_ok c v S). cbn [bind].
  destruct (layout_read c v S) as (R & h & E1 & E2 & E3 & E4 & _). rewrite E1. cbn [bind]. now rewrite E2.
Qed.
Lemma num_is_positive_spec c v : storable v ->
  num_is_positive c (layout (be_varlen c) (to_number v)) = Ret (is_positive v).
Proof.
  intro S. unfold num_is_positive. rewrite (as_binary_ok c v S). cbn [bind].
  destruct (layout_read c v S) as (R & h & E1 & E2 & E3 & E4 & _). rewrite E1. cbn [bind]. now rewrite E2.
Qed.
Lemma num_scale_spec c v : storable v ->
  num_scale c (layout (be_varlen c) (to_number v)) = Ret (Some (dscale v)).
Proof.
  intro S. unfold num_scale. rewrite (as_binary_ok c v S). cbn [bind].
  destruct (layout_read c v S) as (R & h & E1 & E2 & E3 & E4 & _). rewrite E1. cbn [bind]. now rewrite E4, E3.
Qed.

(** ** NaN *)
Lemma nan_buf_spec c : nan_buf c = Ret (nan_layout (be_varlen c)).
Proof. destruct c as [[|] [|]]; reflexivity. Qed.
Lemma nan_is_nan c : num_is_nan c (nan_layout (be_varlen c)) = Ret true.
Proof. destruct c as [[|] [|]]; reflexivity. Qed.
Lemma nan_as_var c : as_var c (nan_layout (be_varlen c)) = Ret nan_var.
Proof. destruct c as [[|] [|]]; reflexivity. Qed.
Lemma nan_is_negative c : num_is_negative c (nan_layout (be_varlen c)) = Ret false.
Proof. destruct c as [[|] [|]]; reflexivity. Qed.
Lemma nan_is_positive c : num_is_positive c (nan_layout (be_varlen c)) = Ret false.
Proof. destruct c as [[|] [|]]; reflexivity. Qed.
Lemma nan_scale c : num_scale c (nan_layout (be_varlen c)) = Ret None.
Proof. destruct c as [[|] [|]]; reflexivity. Qed.
Lemma numeric_nan_spec c : numeric_nan c = nan_layout (be_varlen c).
Proof. destruct c as [[|] [|]]; reflexivity. Qed.
