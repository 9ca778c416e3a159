(** * DataDebug: what Debug prints of a NumericBuf (C66), and the layouts of C65. *)
From Coq Require Import ZArith QArith List Bool Lia.
From Verif Require Import Base Var Binary Typmod Num Data Spec SpecApi SpecData Digits Strip Arith Codec Make Api1 Api2 Api3 Api4 Laws DataSim DataBuf DataApi.
Import ListNotations.
Open Scope Z_scope.

Lemma to_owned_words c a l : to_owned c a l = Ret (Data (map a (seq 0 5) ++ l) 5).
Proof.
  pose proof (lenz_nonneg l). unfold to_owned, with_ndigits. rewrite dassert_ok by (apply Z.leb_le; lia). cbn [bind].
  change (NUMERIC_HEADER_NDIGITS + 1) with 5. change NUMERIC_HEADER_NDIGITS with 4.
  replace (lenz l + 4 + 1) with (5 + lenz l) by lia.
  assert (A : alloc a (5 + lenz l) = map a (seq 0 5) ++ map a (seq 5 (length l))).
  { unfold alloc. replace (Z.to_nat (5 + lenz l)) with (5 + length l)%nat by (unfold lenz; lia). now rewrite seq_app, map_app. }
  rewrite A. set (w2 := map a (seq 5 (length l))).
  assert (L2 : length w2 = length l) by (unfold w2; now rewrite map_length, seq_length).
  unfold copy_in. assert (SL : slice c (Data (map a (seq 0 5) ++ w2) 5) (lenz l) = Ret w2).
  { unfold lenz. rewrite <- L2. apply slice_ok. exists (map a (seq 0 5)), []. cbn [words off]. rewrite app_nil_r. split; reflexivity. }
  rewrite SL. cbn [bind words off]. change (Z.to_nat 5) with 5%nat.
  assert (L1 : length (map a (seq 0 5)) = 5%nat) by reflexivity.
  replace (firstn 5 (map a (seq 0 5) ++ w2)) with (map a (seq 0 5)) by (rewrite <- L1 at 2; now rewrite firstn_app_len).
  replace (skipn (5 + length l) (map a (seq 0 5) ++ w2)) with (@nil Z); [now rewrite app_nil_r|].
  symmetry. apply skipn_all2. rewrite app_length, L1, L2. lia.
Qed.

(** a fresh NumericBuf: one or two words never written, then the number's bytes *)
Lemma debug_shows c (x : bytes) : valid (be_varlen c) x ->
  exists k, (k = 1 \/ k = 2)%nat /\ forall a, exists b, p_to_owned c a x = Ret b /\ as_bytes c b = Ret x /\
    p_debug b = (flat_map (fun i => le_bytes 2 (a i)) (seq 0 k) ++ x, 2 * Z.of_nat k + lenz x, 2 * Z.of_nat k).
Proof.
  intro V.
  assert (G : exists v, vok v /\ as_var c x = Ret v /\ encode c v = Ret x).
  { destruct (valid_cases _ _ V) as [->|(v & C & ->)].
    - exists nan_var. split; [now right|]. split; [apply nan_as_var|]. apply (nan_buf_spec c).
    - exists v. split; [now left|]. split; [apply as_var_spec|apply encode_spec]; now apply canon_storable. }
  destruct G as (v & K & A & E). pose proof (vok_good v K) as G.
  destruct (header_exists c v G) as (hdr & H1 & H2 & n & L & Hn & B).
  destruct (words_of_flat n hdr L B) as [F Lw].
  exists (5 - n)%nat. split; [lia|]. intro a.
  destruct (to_owned_sim c a x V) as (b & Eb & R). exists b. split; [exact Eb|]. split; [exact (bufrel_bytes c b x R)|].
  unfold p_to_owned in Eb. rewrite A in Eb. cbn [bind] in Eb. unfold p_into_buf in Eb. cbn [p_cow own p_weight p_dscale p_sign p_nd] in Eb.
  rewrite to_owned_words in Eb. cbn [bind] in Eb. unfold p_set_header in Eb.
  rewrite dassert_ok in Eb by (apply Z.leb_le; apply lenz_nonneg). cbn [bind off] in Eb.
  change NUMERIC_HEADER_NDIGITS with 4 in Eb. rewrite dassert_ok in Eb by reflexivity. cbn [bind] in Eb.
  rewrite H1 in Eb. cbn [bind] in Eb. cbn zeta in Eb. rewrite Lw in Eb.
  assert (Ln : lenz hdr = 2 * Z.of_nat n) by (unfold lenz; lia).
  replace (5 - Z.of_nat n <? 0) with false in Eb by (symmetry; apply Z.ltb_ge; lia).
  unfold from_raw_parts in Eb.
  match type of Eb with (dassert _ ?t ;;; _) = _ => destruct (dassert c t) as [[]|w| |]; try discriminate Eb end.
  cbn [bind words off] in Eb. match type of Eb with Ret ?z = Ret _ => assert (Xb : b = z) by congruence end. rewrite Xb. clear Eb Xb R. unfold p_debug. cbn [b_words b_off].
  change (skipn (Z.to_nat 5) (map a (seq 0 5) ++ digits v)) with (digits v).
  assert (P : firstn (Z.to_nat (5 - Z.of_nat n)) (map a (seq 0 5) ++ digits v) = map a (seq 0 (5 - n))).
  { destruct Hn as [-> | ->]; reflexivity. }
  rewrite P. clear P.
  rewrite E in H2. assert (Xx : x = hdr ++ flat_map le16 (digits v)) by congruence. rewrite Xx.
  rewrite !flat_map_app16, F. rewrite !lenz_app, Lw, lenz_flat16, Ln. change NUMERIC_DIGIT_SIZE with 2.
  assert (LM : lenz (map a (seq 0 (5 - n))) = 5 - Z.of_nat n) by (unfold lenz; rewrite map_length, seq_length; lia).
  rewrite LM. f_equal; [f_equal|lia].
  - f_equal. clear LM. induction (seq 0 (5 - n)) as [|i t IH]; [reflexivity|]. cbn [map flat_map]. now rewrite IH, le16_le.
  - lia.
Qed.
