(** * DataBuf: the header written into and read back from a buffer. *)
From Coq Require Import ZArith List Bool Lia.
From Verif Require Import Base Var Binary Data Spec Digits Strip Arith Codec DataSim.
Import ListNotations.
Open Scope Z_scope.

Definition good (v : var) : Prop := storable v \/ v = nan_var.

Definition byte (b : Z) : Prop := 0 <= b < 256.

Lemma bytes_le k x : Forall byte (le_bytes k x).
Proof. revert x. induction k as [|k IH]; intro x; cbn [le_bytes]; constructor; auto. apply byte_bound. Qed.

Lemma bytes_encode_len c n : Forall byte (encode_len c n).
Proof. unfold encode_len. destruct (be_varlen c); rewrite le32_le; [apply Forall_rev|]; apply bytes_le. Qed.
Lemma lenz_encode_len c n : lenz (encode_len c n) = 4.
Proof. unfold encode_len. destruct (be_varlen c); rewrite le32_le; reflexivity. Qed.

Lemma le16_as_i16 n : le16 (as_i16 n) = le16 n.
Proof.
  rewrite !le16_le. rewrite <- (le_bytes2_mod n), <- (le_bytes2_mod (as_i16 n)). f_equal.
  unfold as_i16, wrap. change (2 ^ (16 - 1)) with 32768. change (2 ^ 16) with 65536.
  rewrite Zminus_mod, Z.mod_mod, <- Zminus_mod by lia. f_equal. lia.
Qed.

Lemma words_of_flat n : forall x, length x = (2 * n)%nat -> Forall byte x ->
  flat_map le16 (words_of x) = x /\ lenz (words_of x) = Z.of_nat n.
Proof.
  induction n as [|n IH]; intros x L B.
  - destruct x; [split; reflexivity|discriminate].
  - destruct x as [|b0 [|b1 t]]; try (cbn in L; lia).
    assert (B0 : byte b0) by (now inversion B). assert (B1 : byte b1) by (inversion B as [|? ? _ T]; now inversion T).
    assert (Bt : Forall byte t) by (inversion B as [|? ? _ T]; now inversion T).
    destruct (IH t) as [F S]; [cbn in L; lia|exact Bt|].
    cbn [words_of]. split.
    + cbn [flat_map]. rewrite le16_as_i16, F. unfold byte in *. rewrite lor_bytes by exact B0. rewrite le16_le.
      cbn [le_bytes app]. f_equal; [|f_equal].
      * rewrite Z.mul_comm, Z.mod_add by lia. now apply Z.mod_small.
      * replace (b0 + 256 * b1) with (b0 + b1 * 256) by lia. rewrite Z.div_add, (Z.div_small b0), Z.add_0_l by lia.
        now apply Z.mod_small.
    + rewrite lenz_cons, S. lia.
Qed.

(** The header bytes of the variable, as [p_set_header] computes them. *)
Definition header_bytes (c : cfg) (v : var) (hdr : bytes) : Prop :=
  (if can_be_short (as_i16 (weight v)) (Z.land (dscale v) 0xFFFF) then
     h <- short_header c (as_i16 (weight v)) (Z.land (dscale v) 0xFFFF) (sign v) ;;
     Ret (encode_len c (NUMERIC_HEADER_SIZE_SHORT + ndigits v * NUMERIC_DIGIT_SIZE) ++ le16 h)
   else
     Ret (encode_len c (NUMERIC_HEADER_SIZE + ndigits v * NUMERIC_DIGIT_SIZE)
          ++ le16 (long_header (Z.land (dscale v) 0xFFFF) (sign v)) ++ le16 (as_i16 (weight v)))) = Ret hdr /\
  encode c v = Ret (hdr ++ flat_map le16 (digits v)) /\
  exists n, length hdr = (2 * n)%nat /\ (n = 3 \/ n = 4)%nat /\ Forall byte hdr.

Lemma header_exists c v : good v -> exists hdr, header_bytes c v hdr.
Proof.
  intro G. unfold header_bytes, encode.
  assert (Bl : forall n h, Forall byte (encode_len c n ++ le16 h)).
  { intros n h. apply Forall_app. split; [apply bytes_encode_len|rewrite le16_le; apply bytes_le]. }
  assert (L4 : forall n, length (encode_len c n) = 4%nat).
  { intro n. pose proof (lenz_encode_len c n) as H. unfold lenz in H. lia. }
  destruct (can_be_short (as_i16 (weight v)) (Z.land (dscale v) 0xFFFF)) eqn:E.
  - assert (Sh : exists h, short_header c (as_i16 (weight v)) (Z.land (dscale v) 0xFFFF) (sign v) = Ret h).
    { destruct G as [S| ->].
      - pose proof (so_nan v S). unfold short_header. destruct (sign v); [eexists; reflexivity|eexists; reflexivity|congruence].
      - exists NUMERIC_NAN. unfold short_header. cbn [sign weight dscale nan_var].
        rewrite dassert_ok by reflexivity. cbn [bind]. rewrite dassert_ok by reflexivity. reflexivity. }
    destruct Sh as [h ->]. cbn [bind]. eexists. split; [reflexivity|]. split; [now rewrite <- app_assoc|].
    exists 3%nat. split; [rewrite app_length, L4; reflexivity|]. split; [now left|apply Bl].
  - eexists. split; [reflexivity|]. split; [now rewrite <- !app_assoc|].
    exists 4%nat. split; [rewrite !app_length, L4; reflexivity|]. split; [now right|].
    rewrite app_assoc. apply Forall_app. split; [apply Bl|]. rewrite le16_le. apply bytes_le.
Qed.

(** What the accessors of a stored variable give. *)
Definition reads (c : cfg) (v : var) (x : bytes) : Prop :=
  read_len c x = Ret (lenz x) /\ as_binary c x = Ret tt /\ num_is_nan c x = Ret (is_nan v) /\
  num_is_negative c x = Ret (is_negative v) /\ into_var c x = Ret v /\ as_var c x = Ret v /\
  exists h, read_header x = Ret h /\ header_sign h = sign v /\ header_dscale h = dscale v /\
    lenz x = header_size h + 2 * ndigits v /\
    (if header_is_short h then weight_short h = weight v
     else exists w, read_u16 x 6 = Ret w /\ as_i16 w = weight v).

Lemma good_reads c v x : good v -> encode c v = Ret x -> reads c v x.
Proof.
  intros [S| ->] E.
  - rewrite (encode_spec c v S) in E. injection E as <-.
    destruct (layout_read c v S) as (R & h & E1 & E2 & E3 & E4 & E5 & E6 & E7).
    assert (N : is_nan v = false).
    { unfold is_nan. pose proof (so_nan v S). destruct (sign v); auto; congruence. }
    unfold reads. rewrite N, (num_is_nan_spec c v S), (num_is_negative_spec c v S), (into_var_spec c v S), (as_var_spec c v S).
    repeat (split; [auto using as_binary_ok|]). exists h. split; [exact E1|]. split; [exact E2|]. split; [exact E3|].
    split; [exact E5|]. destruct (header_is_short h).
    + now destruct E7.
    + destruct E7 as (_ & E7). exact E7.
  - change (encode c nan_var) with (nan_buf c) in E. rewrite nan_buf_spec in E. injection E as <-.
    unfold reads. destruct c as [[|] [|]]; (repeat (split; [reflexivity|]); exists NUMERIC_NAN; repeat split; reflexivity).
Qed.

(** A buffer holding the variable, header included. *)
Definition holds (c : cfg) (b : pbuf) (v : var) : Prop :=
  good v /\ exists pre hw post,
    b_words b = pre ++ hw ++ digits v ++ post /\ b_off b = 2 * lenz pre /\ 4 <= lenz pre + lenz hw /\
    encode c v = Ret (flat_map le16 hw ++ flat_map le16 (digits v)).

Lemma lenz_flat16 l : lenz (flat_map le16 l) = 2 * lenz l.
Proof. induction l as [|d t IH]; [reflexivity|]. cbn [flat_map]. rewrite lenz_app, IH, lenz_cons. change (lenz (le16 d)) with 2. lia. Qed.

Lemma into_buf_ok c a p v : good v -> rep p v -> exists b, p_into_buf c a p = Ret b /\ holds c b v.
Proof.
  intros G R. unfold p_into_buf. destruct (own_ok c a p v R) as (d & E & O & D). rewrite E. cbn [bind].
  rewrite (rp_weight p v R), (rp_dscale p v R), (rp_sign p v R), (rp_nd p v R).
  destruct (header_exists c v G) as (hdr & H1 & H2 & n & L & Hn & B).
  destruct (words_of_flat n hdr L B) as [F Lw].
  unfold p_set_header. rewrite dassert_ok by (apply Z.leb_le; apply lenz_nonneg). cbn [bind].
  change NUMERIC_HEADER_NDIGITS with 4. rewrite dassert_ok by (apply Z.leb_le; lia). cbn [bind].
  rewrite H1. cbn [bind]. cbn zeta. rewrite Lw.
  assert (Ln : lenz hdr = 2 * Z.of_nat n) by (unfold lenz; lia).
  assert (Bn : 3 <= Z.of_nat n <= 4) by lia.
  replace (off d - Z.of_nat n <? 0) with false by (symmetry; apply Z.ltb_ge; lia).
  destruct D as (pre & post & W & Lo).
  set (st := Z.to_nat (off d - Z.of_nat n)).
  assert (Fi : firstn st (words d) = firstn st pre).
  { rewrite W, firstn_app. replace (st - length pre)%nat with 0%nat by (unfold st, lenz in *; lia).
    now rewrite firstn_O, app_nil_r. }
  assert (Sk : skipn (Z.to_nat (off d)) (words d) = digits v ++ post).
  { rewrite W, <- Lo, to_nat_lenz. apply skipn_app_len. }
  assert (Lf : lenz (firstn st pre) = off d - Z.of_nat n) by (apply lenz_firstn; lia).
  rewrite Fi, Sk. unfold from_raw_parts. change NUMERIC_DIGIT_SIZE with 2.
  rewrite dassert_ok.
  2:{ rewrite !lenz_app, Lf, Lw, Ln. pose proof (lenz_nonneg (digits v)). pose proof (lenz_nonneg post). apply Z.ltb_lt. lia. }
  cbn [bind]. eexists. split; [reflexivity|]. split; [exact G|].
  exists (firstn st pre), (words_of hdr), post. cbn [b_words b_off]. split; [reflexivity|].
  split; [lia|]. split; [lia|]. rewrite F. exact H2.
Qed.

Lemma get_app_l {A} (l m : list A) i : i < lenz l -> 0 <= i -> get_unchecked (l ++ m) i = get_unchecked l i.
Proof.
  intros H H0. unfold get_unchecked. replace (i <? 0) with false by (symmetry; apply Z.ltb_ge; lia).
  rewrite nth_error_app1; [reflexivity|]. unfold lenz in H. lia.
Qed.

Lemma read_len_app c x t : 4 <= lenz x -> read_len c (x ++ t) = read_len c x.
Proof. intro H. unfold read_len. now rewrite !get_app_l by lia. Qed.

Lemma flat_map_app16 l m : flat_map le16 (l ++ m) = flat_map le16 l ++ flat_map le16 m.
Proof. apply flat_map_app. Qed.

Lemma as_bytes_ok c b v : holds c b v -> exists x, as_bytes c b = Ret x /\ encode c v = Ret x.
Proof.
  intros (G & pre & hw & post & W & O & B & E). exists (flat_map le16 hw ++ flat_map le16 (digits v)). split; [|exact E].
  pose proof (good_reads c v _ G E) as (R & _ & _ & _ & _ & _ & h & E1 & E2 & E3 & E4 & _).
  unfold as_bytes. rewrite W, O, !lenz_app.
  pose proof (lenz_nonneg pre). pose proof (lenz_nonneg hw). pose proof (lenz_nonneg (digits v)). pose proof (lenz_nonneg post).
  replace (2 * lenz pre <? 0) with false by (symmetry; apply Z.ltb_ge; lia).
  match goal with |- context [?a <? ?b] => replace (a <? b) with false by (symmetry; apply Z.ltb_ge; lia) end.
  cbn [orb]. cbn zeta. set (x := flat_map le16 hw ++ flat_map le16 (digits v)) in *.
  assert (M : skipn (Z.to_nat (2 * lenz pre)) (flat_map le16 (pre ++ hw ++ digits v ++ post)) = x ++ flat_map le16 post).
  { rewrite !flat_map_app16. replace (Z.to_nat (2 * lenz pre)) with (length (flat_map le16 pre)).
    - rewrite skipn_app_len. unfold x. now rewrite <- app_assoc.
    - pose proof (lenz_flat16 pre) as L. unfold lenz in *. lia. }
  rewrite M.
  assert (Lx : 6 <= lenz x).
  { rewrite E4. unfold ndigits. assert (6 <= header_size h) by (unfold header_size; destruct (header_is_short h); vm_compute; discriminate). lia. }
  rewrite read_len_app by lia. rewrite R. cbn [bind].
  assert (Lx2 : lenz x = 2 * lenz hw + 2 * lenz (digits v)) by (unfold x; rewrite lenz_app, !lenz_flat16; reflexivity).
  rewrite dassert_ok by (apply Z.leb_le; lia). cbn [bind].
  rewrite lenz_app, lenz_flat16. replace (lenz x + 2 * lenz post <? lenz x) with false by (symmetry; apply Z.ltb_ge; lia).
  rewrite to_nat_lenz, firstn_app_len. reflexivity.
Qed.

Lemma into_var_ok c b v : holds c b v -> exists p, p_into_var c b = Ret p /\ rep p v.
Proof.
  intro H. destruct (as_bytes_ok c b v H) as (x & Ab & Ex).
  destruct H as (G & pre & hw & post & W & O & B & E). rewrite Ex in E. injection E as Ex2.
  pose proof (good_reads c v _ G Ex) as (R & A & _ & _ & _ & _ & h & E1 & E2 & E3 & E4 & E5).
  assert (Lx2 : lenz x = 2 * lenz hw + 2 * lenz (digits v)) by (rewrite Ex2, lenz_app, !lenz_flat16; reflexivity).
  unfold ndigits in E4.
  assert (Hh : header_size h = 2 * lenz hw) by lia.
  unfold p_into_var. rewrite Ab. cbn [bind]. rewrite A. cbn [bind]. rewrite E1. cbn [bind]. cbn zeta.
  rewrite O, Hh. change NUMERIC_DIGIT_SIZE with 2.
  replace (2 * lenz pre + 2 * lenz hw) with ((lenz pre + lenz hw) * 2) by lia. rewrite Z.quot_mul by lia.
  pose proof (lenz_nonneg pre). pose proof (lenz_nonneg hw). pose proof (lenz_nonneg (digits v)). pose proof (lenz_nonneg post).
  rewrite dassert_ok by (rewrite W, !lenz_app; apply Z.leb_le; lia). cbn [bind]. rewrite R. cbn [bind].
  rewrite <- Hh. rewrite E4. rewrite (ndigits_of_ok c (header_size h) (lenz (digits v))) by lia. cbn [bind].
  assert (Wt : (if header_is_short h then Ret (weight_short h) else w <- read_u16 x 6 ;; Ret (as_i16 w)) = Ret (weight v)).
  { destruct (header_is_short h); [now rewrite E5|]. destruct E5 as (w & -> & <-). reflexivity. }
  rewrite Wt. cbn [bind]. rewrite dassert_ok by (rewrite W, !lenz_app; apply Z.leb_le; lia). cbn [bind].
  eexists. split; [reflexivity|]. constructor; cbn [p_nd p_weight p_dscale p_sign p_cow]; auto.
  split; [exact B|]. exists (pre ++ hw), post. cbn [words off]. split; [now rewrite W, <- app_assoc|]. now rewrite lenz_app.
Qed.
