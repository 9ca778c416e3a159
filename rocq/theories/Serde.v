(** * Serde: deserializing arbitrary bytes (C44). *)
From Coq Require Import ZArith List Bool Lia.
From Verif Require Import Base Var Binary Num Spec SpecApi Digits Arith Codec SpecSerde.
Import ListNotations.
Open Scope Z_scope.

Definition is_byte (b : Z) : Prop := 0 <= b < 256.

Lemma six (x : list Z) : 6 <= lenz x -> exists b0 b1 b2 b3 b4 b5 t, x = b0 :: b1 :: b2 :: b3 :: b4 :: b5 :: t.
Proof.
  unfold lenz. intro H. destruct x as [|b0 [|b1 [|b2 [|b3 [|b4 [|b5 t]]]]]]; cbn [length] in H; try lia.
  now exists b0, b1, b2, b3, b4, b5, t.
Qed.

Lemma read_len_any c b0 b1 b2 b3 t : is_byte b0 -> is_byte b1 -> is_byte b2 -> is_byte b3 ->
  read_len c (b0 :: b1 :: b2 :: b3 :: t) = Ret (declared_len (be_varlen c) (b0 :: b1 :: b2 :: b3 :: t)).
Proof.
  unfold is_byte. intros H0 H1 H2 H3. unfold read_len. rewrite get_0, get_1, get_2, get_3. cbn [bind]. f_equal.
  unfold decode_len, declared_len, byte_at. cbn [nth]. change (256 ^ 3) with 16777216. change (256 ^ 2) with 65536.
  destruct (be_varlen c).
  - rewrite word_le_bytes by assumption. rewrite (land_mask _ 0 30 0x3FFFFFFF) by (try lia; reflexivity).
    change (2 ^ 0) with 1. rewrite Z.div_1_r, Z.mul_1_r. f_equal. lia.
  - rewrite word_le_bytes by assumption. rewrite (land_mask _ 0 30 0x3FFFFFFF) by (try lia; reflexivity).
    change (2 ^ 0) with 1. rewrite Z.div_1_r, Z.mul_1_r, Z.shiftr_div_pow2 by lia. change (2 ^ 2) with 4.
    rewrite Z.mod_small; [f_equal; lia|]. split; [apply Z.div_pos; lia|]. apply Z.div_lt_upper_bound; lia.
Qed.

Lemma declared_range be x : Forall is_byte x -> 0 <= declared_len be x < 2 ^ 30.
Proof.
  intro F. assert (B : forall i, is_byte (byte_at x i)).
  { intro i. unfold byte_at. destruct (nth_in_or_default i x 0) as [I| ->]; [|unfold is_byte; lia].
    rewrite Forall_forall in F. now apply F. }
  unfold declared_len. change (256 ^ 3) with 16777216. change (256 ^ 2) with 65536.
  pose proof (B 0%nat). pose proof (B 1%nat). pose proof (B 2%nat). pose proof (B 3%nat). unfold is_byte in *.
  destruct be; [apply Z.mod_pos_bound; lia|]. split; [apply Z.div_pos; lia|]. apply Z.div_lt_upper_bound; lia.
Qed.

Lemma flag_kind h : 0 <= h < 65536 -> flag_bits h = h / 2 ^ 14 * 16384 /\ 0 <= h / 2 ^ 14 < 4.
Proof.
  intro H. assert (K : 0 <= h / 2 ^ 14 < 4) by (change (2 ^ 14) with 16384; split; [apply Z.div_pos; lia|apply Z.div_lt_upper_bound; lia]).
  split; [|exact K]. unfold flag_bits, NUMERIC_SIGN_MASK. rewrite (land_mask _ 14 2 0xC000) by (try lia; reflexivity).
  change (2 ^ 2) with 4. now rewrite Z.mod_small.
Qed.

Lemma take_some n (x : list Z) : 2 * Z.of_nat n <= lenz x -> exists l, take_digits n x = Ret l /\ length l = n.
Proof.
  revert x. induction n as [|n IH]; intros x H; [now exists []|]. unfold lenz in *.
  destruct x as [|a [|b t]]; cbn [length] in H; try lia. cbn [take_digits].
  destruct (IH t) as (l & -> & L); [lia|]. cbn [bind]. eexists. split; [reflexivity|]. cbn [length]. lia.
Qed.

Lemma read_digits_ok x o n : 0 <= o -> 0 <= n -> o + 2 * n <= lenz x -> exists l, read_digits x o n = Ret l /\ lenz l = n.
Proof.
  intros O N L. unfold read_digits, NUMERIC_DIGIT_SIZE.
  replace (lenz x <? o + n * 2) with false by (symmetry; apply Z.ltb_ge; lia).
  destruct (take_some (Z.to_nat n) (skipn (Z.to_nat o) x)) as (l & E & Ll).
  - unfold lenz in *. rewrite skipn_length. lia.
  - exists l. split; [exact E|]. unfold lenz. lia.
Qed.
Lemma read_digits_ub x o n : lenz x < o + 2 * n -> read_digits x o n = UB.
Proof.
  intro L. unfold read_digits, NUMERIC_DIGIT_SIZE.
  now replace (lenz x <? o + n * 2) with true by (symmetry; apply Z.ltb_lt; lia).
Qed.

Lemma half_down a : 2 * (Z.quot a 2) = a - a mod 2 \/ a < 0.
Proof.
  destruct (Z_lt_dec a 0) as [L|L]; [now right|left]. rewrite Z.quot_div_nonneg by lia.
  pose proof (Z.div_mod a 2 ltac:(lia)). lia.
Qed.


Lemma as_i16_range x : -32768 <= as_i16 x <= 32767.
Proof. unfold as_i16, wrap. change (2 ^ (16 - 1)) with 32768. change (2 ^ 16) with 65536. pose proof (Z.mod_pos_bound (x + 32768) 65536 ltac:(lia)). lia. Qed.

Lemma len_word_bytes be len : Forall is_byte (len_word be len).
Proof.
  assert (F : forall k x, Forall is_byte (le_bytes k x)).
  { induction k as [|k IH]; intro x; cbn [le_bytes]; [apply Forall_nil|]. apply Forall_cons; [apply byte_bound|apply IH]. }
  unfold len_word. destruct be; [|apply F]. apply Forall_rev. apply F.
Qed.

Lemma declared_word c len t : 0 <= len < 2 ^ 30 -> declared_len (be_varlen c) (len_word (be_varlen c) len ++ t) = len.
Proof.
  intro H. pose proof (nth_len_word c len t H) as R. pose proof (len_word_bytes (be_varlen c) len) as F.
  destruct (len_word_4 (be_varlen c) len) as (b0 & b1 & b2 & b3 & E). rewrite E in *. cbn [app] in *.
  inversion F as [|? ? F0 G0]; subst. inversion G0 as [|? ? F1 G1]; subst. inversion G1 as [|? ? F2 G2]; subst.
  inversion G2 as [|? ? F3 G3]; subst. rewrite read_len_any in R by assumption. congruence.
Qed.

Lemma kind_word be len h t : 0 <= h < 65536 -> header_kind (len_word be len ++ le_bytes 2 h ++ t) = h / 2 ^ 14.
Proof.
  intro H. destruct (len_word_4 be len) as (b0 & b1 & b2 & b3 & ->). unfold header_kind, byte_at. cbn [app le_bytes nth].
  f_equal. rewrite (Z.mod_small (h / 256)).
  - pose proof (Z.div_mod h 256 ltac:(lia)). lia.
  - split; [apply Z.div_pos; lia|apply Z.div_lt_upper_bound; lia].
Qed.

(** an encoding of any variable describes itself rightly *)
Lemma encode_there c v : sign v <> SNaN -> -32768 <= weight v <= 32767 -> 0 <= dscale v <= 16383 -> 8 + 2 * ndigits v < 2 ^ 30 ->
  exists y, encode c v = Ret y /\ declared_len (be_varlen c) y = lenz y /\ all_there (be_varlen c) y.
Proof.
  intros N W S L. change (2 ^ 30) with 1073741824 in L. pose proof (lenz_nonneg (digits v)) as L0. fold (ndigits v) in L0.
  set (v0 := Var (weight v) (dscale v) (sign v) []).
  assert (St : storable v0) by (constructor; cbn; [apply Forall_nil|exact N|exact W|exact S|unfold ndigits, lenz; cbn; lia]).
  unfold encode. rewrite (as_i16_id (weight v)) by exact W. rewrite (land_ffff (dscale v)) by lia. rewrite flat_le.
  assert (M : forall a, (2 * a) mod 2 = 0) by (intro a; rewrite Z.mul_comm; apply Z.mod_mul; lia).
  destruct (can_be_short (weight v) (dscale v)) eqn:E.
  - rewrite (short_header_spec c v0 St E : short_header c (weight v) (dscale v) (sign v) = _). cbn [bind v0 weight dscale sign].
    rewrite le16_le. set (h := 32768 + _ + _ + _).
    assert (Hh : 32768 <= h < 49152).
    { unfold can_be_short in E. change NUMERIC_SHORT_DSCALE_MAX with 63 in E. apply andb_prop in E. destruct E as [E _].
      apply andb_prop in E. destruct E as [E _]. apply Z.leb_le in E. pose proof (Z.mod_pos_bound (weight v) 128 ltac:(lia)).
      unfold h. destruct (sgn_eqb (sign v) SNeg); lia. }
    unfold NUMERIC_HEADER_SIZE_SHORT, NUMERIC_DIGIT_SIZE. rewrite encode_len_word by (change (2 ^ 30) with 1073741824; lia).
    eexists. split; [reflexivity|].
    assert (Ly : lenz (len_word (be_varlen c) (6 + ndigits v * 2) ++ le_bytes 2 h ++ flat_map (le_bytes 2) (digits v)) = 6 + 2 * ndigits v).
    { rewrite !lenz_app, lenz_len_word, lenz_le_bytes, lenz_flat. unfold ndigits. lia. }
    assert (D : declared_len (be_varlen c) (len_word (be_varlen c) (6 + ndigits v * 2) ++ le_bytes 2 h ++ flat_map (le_bytes 2) (digits v)) = 6 + 2 * ndigits v).
    { rewrite declared_word by (change (2 ^ 30) with 1073741824; lia). lia. }
    rewrite D, Ly. split; [reflexivity|]. unfold all_there. fold (@lenz Z (len_word (be_varlen c) (6 + ndigits v * 2) ++ le_bytes 2 h ++ flat_map (le_bytes 2) (digits v))).
    rewrite D, Ly, kind_word by lia.
    assert (K : h / 2 ^ 14 = 2) by (change (2 ^ 14) with 16384; symmetry; apply (Z.div_unique h 16384 2 (h - 32768)); lia).
    rewrite K. unfold kind_size. change (2 <? 2) with false. split; [lia|]. right. split; [lia|].
    replace (6 + 2 * ndigits v - 6) with (2 * ndigits v) by lia. rewrite M. lia.
  - pose proof (long_header_spec v0 St : long_header (dscale v) (sign v) = _) as LH. cbn [v0 dscale sign] in LH. rewrite LH. rewrite !le16_le.
    set (h := _ + dscale v).
    assert (Hh : 0 <= h < 32768) by (unfold h; destruct (sgn_eqb (sign v) SNeg); lia).
    unfold NUMERIC_HEADER_SIZE, NUMERIC_DIGIT_SIZE. rewrite encode_len_word by (change (2 ^ 30) with 1073741824; lia).
    eexists. split; [reflexivity|].
    set (t := le_bytes 2 (weight v) ++ flat_map (le_bytes 2) (digits v)).
    assert (Ly : lenz (len_word (be_varlen c) (8 + ndigits v * 2) ++ le_bytes 2 h ++ t) = 8 + 2 * ndigits v).
    { unfold t. rewrite !lenz_app, lenz_len_word, !lenz_le_bytes, lenz_flat. unfold ndigits. lia. }
    assert (D : declared_len (be_varlen c) (len_word (be_varlen c) (8 + ndigits v * 2) ++ le_bytes 2 h ++ t) = 8 + 2 * ndigits v).
    { rewrite declared_word by (change (2 ^ 30) with 1073741824; lia). lia. }
    rewrite D, Ly. split; [reflexivity|]. unfold all_there. fold (@lenz Z (len_word (be_varlen c) (8 + ndigits v * 2) ++ le_bytes 2 h ++ t)).
    rewrite D, Ly, kind_word by lia.
    assert (K : 0 <= h / 2 ^ 14 < 2) by (change (2 ^ 14) with 16384; split; [apply Z.div_pos; lia|apply Z.div_lt_upper_bound; lia]).
    unfold kind_size. replace (h / 2 ^ 14 <? 2) with true by (symmetry; apply Z.ltb_lt; lia). split; [lia|]. right. split; [lia|].
    replace (8 + 2 * ndigits v - 8) with (2 * ndigits v) by lia. rewrite M. lia.
Qed.

Definition good (c : cfg) (r : outcome bytes) : Prop :=
  exists y, r = Ret y /\ declared_len (be_varlen c) y = lenz y /\ all_there (be_varlen c) y.

Lemma nan_good c : good c (nan_buf c).
Proof.
  rewrite nan_buf_spec. eexists. split; [reflexivity|]. destruct (be_varlen c); (split; [vm_compute; reflexivity|]);
    (split; [vm_compute; discriminate|left; vm_compute; reflexivity]).
Qed.

(** the copy, once the debug assertion has passed *)
Definition copy_from (c : cfg) (x : bytes) : outcome bytes :=
  v <- (h <- read_header x ;;
  if flag_bits h =? NUMERIC_SHORT then
    len <- read_len c x ;;
    n <- ndigits_of c len NUMERIC_HEADER_SIZE_SHORT ;;
    ds <- read_digits x NUMERIC_HEADER_SIZE_SHORT n ;;
    Ret (Var (weight_short h)
             (Z.shiftr (Z.land h NUMERIC_SHORT_DSCALE_MASK) NUMERIC_SHORT_DSCALE_SHIFT)
             (if Z.land h NUMERIC_SHORT_SIGN_MASK =? 0 then SPos else SNeg) ds)
  else if flag_bits h =? NUMERIC_NAN then Ret nan_var
  else
    len <- read_len c x ;;
    n <- ndigits_of c len NUMERIC_HEADER_SIZE ;;
    w <- read_u16 x 6 ;;
    ds <- read_digits x NUMERIC_HEADER_SIZE n ;;
    Ret (Var (as_i16 w) (Z.land h NUMERIC_DSCALE_MASK)
             (if flag_bits h =? NUMERIC_NEG then SNeg else SPos) ds)) ;;
  if is_nan v then nan_buf c else encode c v.

Lemma deserialize_from c x : deserialize_bytes c x = (as_binary c x ;;; copy_from c x).
Proof. unfold deserialize_bytes, num_to_owned, as_var, copy_from. destruct (as_binary c x) as [[]| | |]; reflexivity. Qed.

Lemma short_scale_range h : 0 <= Z.shiftr (Z.land h NUMERIC_SHORT_DSCALE_MASK) NUMERIC_SHORT_DSCALE_SHIFT <= 63.
Proof.
  unfold NUMERIC_SHORT_DSCALE_MASK, NUMERIC_SHORT_DSCALE_SHIFT. rewrite (land_mask _ 7 6 0x1F80) by (try lia; reflexivity).
  rewrite Z.shiftr_div_pow2 by lia. rewrite Z.div_mul by lia. change (2 ^ 6) with 64. pose proof (Z.mod_pos_bound (h / 2 ^ 7) 64 ltac:(lia)). lia.
Qed.
Lemma long_scale_range h : 0 <= Z.land h NUMERIC_DSCALE_MASK <= 16383.
Proof.
  unfold NUMERIC_DSCALE_MASK. rewrite (land_mask _ 0 14 0x3FFF) by (try lia; reflexivity). change (2 ^ 0) with 1.
  rewrite Z.div_1_r, Z.mul_1_r. change (2 ^ 14) with 16384. pose proof (Z.mod_pos_bound h 16384 ltac:(lia)). lia.
Qed.
Lemma short_weight_range h : -32768 <= weight_short h <= 32767.
Proof. unfold weight_short. destruct (_ =? 0); apply as_i16_range. Qed.

Lemma not_nan (b : bool) w s d : is_nan (Var w s (if b then SPos else SNeg) d) = false /\ is_nan (Var w s (if b then SNeg else SPos) d) = false.
Proof. destruct b; now split. Qed.

Lemma copy_spec c x : Forall is_byte x -> lenz x < 2 ^ 30 - 8 ->
  let L := declared_len (be_varlen c) x in let k := header_kind x in
  (lenz x < 6 -> copy_from c x = UB) /\
  (6 <= lenz x ->
    (k = 3 -> good c (copy_from c x)) /\
    (k <> 3 -> L < kind_size k -> dbg c = true -> copy_from c x = Panic WArith) /\
    (k <> 3 -> L < kind_size k -> dbg c = false -> copy_from c x = UB) /\
    (k <> 3 -> kind_size k <= L -> lenz x < L - (L - kind_size k) mod 2 -> copy_from c x = UB) /\
    (k <> 3 -> kind_size k <= L -> L - (L - kind_size k) mod 2 <= lenz x -> good c (copy_from c x))).
Proof.
  intros F B L k. change (2 ^ 30 - 8) with 1073741816 in B. split.
  { intro S. unfold copy_from, read_header, read_u16. unfold lenz in S.
    destruct x as [|b0 [|b1 [|b2 [|b3 [|b4 [|b5 t]]]]]]; cbn [length] in S; try lia; reflexivity. }
  intro S. pose proof (declared_range (be_varlen c) x F) as DR. fold L in DR. change (2 ^ 30) with 1073741824 in DR.
  destruct (six x S) as (b0 & b1 & b2 & b3 & b4 & b5 & t & E).
  assert (RL : read_len c x = Ret L).
  { unfold L. rewrite E in *. inversion F as [|? ? F0 G0]; subst. inversion G0 as [|? ? F1 G1]; subst.
    inversion G1 as [|? ? F2 G2]; subst. inversion G2 as [|? ? F3 G3]; subst. now apply read_len_any. }
  assert (B4 : is_byte b4 /\ is_byte b5).
  { rewrite E in F. do 4 (inversion F as [|? ? ? F']; subst; clear F; rename F' into F).
    inversion F as [|? ? F4 G]; subst. inversion G; subst. now split. }
  destruct B4 as [B4 B5]. unfold is_byte in B4, B5. set (h := b4 + 256 * b5).
  assert (RH : read_header x = Ret h).
  { rewrite E. unfold read_header, read_u16. change (get_unchecked (b0 :: b1 :: b2 :: b3 :: b4 :: b5 :: t) 4) with (Ret b4).
    change (get_unchecked (b0 :: b1 :: b2 :: b3 :: b4 :: b5 :: t) (4 + 1)) with (Ret b5). cbn [bind]. now rewrite lor_bytes. }
  assert (Hh : 0 <= h < 65536) by (unfold h; lia).
  assert (Kk : k = h / 2 ^ 14). { unfold k, header_kind, byte_at. rewrite E. cbn [nth]. unfold h. f_equal. lia. }
  destruct (flag_kind h Hh) as [FK K4]. rewrite <- Kk in FK, K4.
  unfold copy_from. rewrite RH. cbn [bind]. rewrite FK.
  assert (KS : kind_size k = if k <? 2 then 8 else 6) by reflexivity.
  unfold NUMERIC_SHORT, NUMERIC_NAN.
  assert (HD : forall a, 0 <= L - a -> 2 * Z.quot (L - a) 2 = L - a - (L - a) mod 2).
  { intros a H. destruct (half_down (L - a)) as [H'|H']; lia. }
  assert (MB : forall a, 0 <= (L - a) mod 2 < 2) by (intro a; apply Z.mod_pos_bound; lia).
  destruct (Z.eqb_spec (k * 16384) 0x8000) as [K2|K2].
  - (* short *)
    assert (k = 2) as K by lia. rewrite K in *. change (kind_size 2) with 6. cbn [bind]. rewrite RL. cbn [bind].
    split; [lia|]. unfold ndigits_of, NUMERIC_HEADER_SIZE_SHORT, NUMERIC_DIGIT_SIZE. change (kind_size 2) with 6 in *.
    specialize (HD 6). pose proof (MB 6) as MB6.
    destruct (Z.leb_spec 6 L) as [L6|L6].
    + split; [lia|]. split; [lia|]. specialize (HD ltac:(lia)). cbn [bind]. split; intros _ _ X.
      * rewrite read_digits_ub by lia. reflexivity.
      * destruct (read_digits_ok x 6 (Z.quot (L - 6) 2)) as (l & RD & Ll); [lia|lia|lia|]. rewrite RD. cbn [bind].
        rewrite (proj1 (not_nan _ _ _ _)). unfold good. apply encode_there; cbn [sign weight dscale].
        -- destruct (_ =? 0); discriminate.
        -- apply short_weight_range.
        -- pose proof (short_scale_range h). lia.
        -- change (2 ^ 30) with 1073741824. unfold ndigits. cbn [digits]. lia.
    + split; [intros _ _ ->; reflexivity|]. split; [|split; lia]. intros _ _ ->. cbn [bind].
      rewrite read_digits_ub; [reflexivity|]. change (2 ^ 32) with 4294967296.
      destruct (half_down (L - 6 + 4294967296)) as [H'|H']; [|lia]. pose proof (Z.mod_pos_bound (L - 6 + 4294967296) 2 ltac:(lia)). lia.
  - destruct (Z.eqb_spec (k * 16384) 0xC000) as [K3|K3].
    { assert (k = 3) as K by lia. split; [|split; [|split; [|split]]]; try (intros; lia). intros _. cbn [bind]. change (is_nan nan_var) with true. apply nan_good. }
    assert (K : k < 2) by lia. rewrite KS. replace (k <? 2) with true by (symmetry; apply Z.ltb_lt; lia).
    rewrite RL. cbn [bind]. split; [lia|]. unfold ndigits_of, NUMERIC_HEADER_SIZE, NUMERIC_DIGIT_SIZE.
    specialize (HD 8). pose proof (MB 8) as MB8.
    assert (RW : (8 <= lenz x /\ exists w, read_u16 x 6 = Ret w) \/ (lenz x < 8 /\ read_u16 x 6 = UB)).
    { unfold lenz. rewrite E. destruct t as [|b6 [|b7 t]].
      - right. split; [cbn; lia|reflexivity].
      - right. split; [cbn; lia|reflexivity].
      - left. split; [cbn [length]; lia|]. eexists. reflexivity. }
    destruct (Z.leb_spec 8 L) as [L8|L8].
    + split; [lia|]. split; [lia|]. specialize (HD ltac:(lia)). cbn [bind]. split; intros _ _ X.
      * destruct RW as [[_ (w & ->)]|[_ ->]]; cbn [bind]; [|reflexivity]. rewrite read_digits_ub by lia. reflexivity.
      * destruct RW as [[_ (w & ->)]|[L8' _]]; [cbn [bind]|exfalso; lia].
        destruct (read_digits_ok x 8 (Z.quot (L - 8) 2)) as (l & RD & Ll); [lia|lia|lia|]. rewrite RD. cbn [bind].
        rewrite (proj2 (not_nan _ _ _ _)). unfold good. apply encode_there; cbn [sign weight dscale].
        -- destruct (_ =? NUMERIC_NEG); discriminate.
        -- apply as_i16_range.
        -- apply long_scale_range.
        -- change (2 ^ 30) with 1073741824. unfold ndigits. cbn [digits]. lia.
    + split; [intros _ _ ->; reflexivity|]. split; [|split; lia]. intros _ _ ->. cbn [bind].
      destruct RW as [[_ (w & ->)]|[_ ->]]; cbn [bind]; [|reflexivity].
      rewrite read_digits_ub; [reflexivity|]. change (2 ^ 32) with 4294967296.
      destruct (half_down (L - 8 + 4294967296)) as [H'|H']; [|lia]. pose proof (Z.mod_pos_bound (L - 8 + 4294967296) 2 ltac:(lia)). lia.
Qed.

(** release builds: safe exactly when all the declared bytes are there *)
Lemma deserialize_release c x : dbg c = false -> Forall is_byte x -> lenz x < 2 ^ 30 - 8 ->
  (all_there (be_varlen c) x ->
     exists y, deserialize_bytes c x = Ret y /\ declared_len (be_varlen c) y = lenz y /\ all_there (be_varlen c) y) /\
  (~ all_there (be_varlen c) x -> deserialize_bytes c x = UB).
Proof.
  intros D F B. rewrite deserialize_from. unfold as_binary, dassert. rewrite D. cbn [andb bind].
  destruct (copy_spec c x F B) as [C1 C2]. unfold all_there. fold (@lenz Z x).
  destruct (Z_lt_dec (lenz x) 6) as [L|L].
  { split; [intros [H _]; lia|]. intros _. now apply C1. }
  destruct (C2 ltac:(lia)) as (K3 & _ & Ks & Kl & Kg). split.
  - intros [_ [K|[K1 K2]]]; [now apply K3|]. destruct (Z.eq_dec (header_kind x) 3) as [K|K]; [now apply K3|now apply Kg].
  - intro N. destruct (Z.eq_dec (header_kind x) 3) as [K|K]; [exfalso; apply N; split; [lia|now left]|].
    destruct (Z_lt_dec (declared_len (be_varlen c) x) (kind_size (header_kind x))) as [L'|L']; [now apply Ks|].
    apply Kl; [exact K|lia|]. apply Z.nle_gt. intro M. apply N. split; [lia|right; lia].
Qed.

(** debug builds: the length prefix is checked first, so strings of at least six bytes are safe *)
Lemma deserialize_debug c x : dbg c = true -> Forall is_byte x -> lenz x < 2 ^ 30 - 8 ->
  (lenz x < 4 -> deserialize_bytes c x = UB) /\
  (4 <= lenz x -> declared_len (be_varlen c) x <> lenz x -> deserialize_bytes c x = Panic WAssert) /\
  (4 <= lenz x < 6 -> declared_len (be_varlen c) x = lenz x -> deserialize_bytes c x = UB) /\
  (6 <= lenz x -> declared_len (be_varlen c) x = lenz x ->
     (exists y, deserialize_bytes c x = Ret y /\ declared_len (be_varlen c) y = lenz y /\ all_there (be_varlen c) y) \/
     (deserialize_bytes c x = Panic WArith /\ lenz x < 8)).
Proof.
  intros D F B. rewrite deserialize_from. unfold as_binary, dassert. rewrite D. cbn [andb].
  destruct (copy_spec c x F B) as [C1 C2].
  assert (RL : 4 <= lenz x -> read_len c x = Ret (declared_len (be_varlen c) x)).
  { unfold lenz. destruct x as [|b0 [|b1 [|b2 [|b3 t]]]]; cbn [length]; try lia. intros _.
    inversion F as [|? ? F0 G0]; subst. inversion G0 as [|? ? F1 G1]; subst.
    inversion G1 as [|? ? F2 G2]; subst. inversion G2 as [|? ? F3 G3]; subst. now apply read_len_any. }
  split.
  { unfold lenz. destruct x as [|b0 [|b1 [|b2 [|b3 t]]]]; cbn [length]; try lia; reflexivity. }
  split.
  { intros L N. rewrite (RL L). cbn [bind]. apply Z.eqb_neq in N. rewrite N. reflexivity. }
  split.
  { intros L N. rewrite RL by lia. cbn [bind]. rewrite N, Z.eqb_refl. cbn [negb bind]. apply C1. lia. }
  intros L N. rewrite RL by lia. cbn [bind]. rewrite N, Z.eqb_refl. cbn [negb bind].
  destruct (C2 L) as (K3 & Kp & _ & _ & Kg). rewrite N in *.
  destruct (Z.eq_dec (header_kind x) 3) as [K|K]; [left; now apply K3|].
  assert (S : kind_size (header_kind x) = 6 \/ kind_size (header_kind x) = 8) by (unfold kind_size; destruct (_ <? 2); lia).
  pose proof (Z.mod_pos_bound (lenz x - kind_size (header_kind x)) 2 ltac:(lia)).
  destruct (Z_lt_dec (lenz x) (kind_size (header_kind x))) as [M|M].
  - right. split; [now apply Kp|lia].
  - left. apply Kg; [exact K|lia|lia].
Qed.
