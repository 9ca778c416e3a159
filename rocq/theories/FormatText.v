(** * FormatText: the plain text output of var.rs write. *)
From Coq Require Import ZArith QArith Qabs Qpower List Bool Lia Lqa.
From Verif Require Import Base Var Binary Format Parse Num Spec SpecText QDec Digits Arith Strip Codec Make Text.
Import ListNotations.
Open Scope Z_scope.

(** No superfluous leading zero. *)
Definition lead_ok (l : list Z) : Prop := l = [48] \/ exists b r, l = b :: r /\ b <> 48.

Lemma quot10 x : 0 <= x -> Z.quot x 10 = x / 10.
Proof. intro H. apply Z.quot_div_nonneg; lia. Qed.
Lemma rem10 x : 0 <= x -> Z.rem x 10 = x mod 10.
Proof. intro H. apply Z.rem_mod_nonneg; lia. Qed.

Lemma dec_digits_spec fuel : forall x acc, (0 < fuel)%nat -> 0 <= x < 10 ^ Z.of_nat fuel ->
  exists d, dec_digits fuel x acc = d ++ acc /\ Forall digit_char d /\ number_of d = x /\ lead_ok d.
Proof.
  induction fuel as [|f IH]; intros x acc Hf Hx; [lia|].
  cbn [dec_digits]. rewrite rem10, quot10 by lia. change ch_0 with 48.
  pose proof (Z.div_mod x 10 ltac:(lia)) as DM. pose proof (Z.mod_pos_bound x 10 ltac:(lia)) as MB.
  assert (Hd : digit_char (48 + x mod 10)) by (unfold digit_char; lia).
  destruct (Z.eqb_spec (x / 10) 0) as [E|E].
  - exists [48 + x mod 10]. split; [reflexivity|]. split; [constructor; [exact Hd|constructor]|]. rewrite number_of_1.
    split; [lia|]. destruct (Z.eq_dec (x mod 10) 0) as [Z0|Z0]; [left; now rewrite Z0|right]. do 2 eexists. split; [reflexivity|lia].
  - assert (Q : 0 < x / 10) by (pose proof (Z.div_pos x 10 ltac:(lia) ltac:(lia)); lia).
    rewrite Nat2Z.inj_succ, Z.pow_succ_r in Hx by lia.
    assert (Hf' : (0 < f)%nat). { destruct f; [|lia]. change (10 ^ Z.of_nat 0) with 1 in Hx. lia. }
    destruct (IH (x / 10) ((48 + x mod 10) :: acc) Hf') as (d & -> & Fd & Nd & Ld).
    { split; [lia|]. apply Z.div_lt_upper_bound; lia. }
    exists (d ++ [48 + x mod 10]). split; [rewrite <- app_assoc; reflexivity|].
    split; [apply Forall_app; split; [exact Fd|constructor; [exact Hd|constructor]]|].
    split; [rewrite number_of_app, number_of_1, Nd; change (len [48 + x mod 10]) with 1; change (10 ^ 1) with 10; lia|].
    right. destruct Ld as [->|(b & r & -> & N)]; [rewrite number_of_1 in Nd; lia|]. exists b, (r ++ [48 + x mod 10]). auto.
Qed.

Lemma lead_len d k : Forall digit_char d -> lead_ok d -> 0 < k -> number_of d < 10 ^ k -> 1 <= len d <= k.
Proof.
  intros F [->|(b & r & -> & N)] K L; [change (len [48]) with 1; lia|].
  pose proof (number_of_lead b r F N) as B. rewrite len_cons. pose proof (len_nonneg r).
  assert (10 ^ len r < 10 ^ k) by lia. apply Z.pow_lt_mono_r_iff in H0; lia.
Qed.

Lemma digits10 x : 0 <= x <= 9999 -> exists d, dec_digits 10 x [] = d /\ Forall digit_char d /\ number_of d = x /\ lead_ok d.
Proof.
  intro H. destruct (dec_digits_spec 10 x []) as (d & E & R); [lia|change (10 ^ Z.of_nat 10) with 10000000000; lia|].
  rewrite app_nil_r in E. exists d. auto.
Qed.

Lemma fmt_int_spec x : 0 <= x <= 9999 -> Forall digit_char (fmt_int x) /\ number_of (fmt_int x) = x /\ lead_ok (fmt_int x).
Proof.
  intro H. unfold fmt_int. replace (x <? 0) with false by (symmetry; apply Z.ltb_ge; lia).
  destruct (digits10 x H) as (d & -> & R). exact R.
Qed.

Lemma fmt_pad_spec w x : 0 < w <= 4 -> 0 <= x < 10 ^ w ->
  Forall digit_char (fmt_pad w x) /\ number_of (fmt_pad w x) = x /\ len (fmt_pad w x) = w.
Proof.
  intros W H. assert (X : x <= 9999).
  { assert (10 ^ w <= 10 ^ 4) by (apply Z.pow_le_mono_r; lia). change (10 ^ 4) with 10000 in *. lia. }
  unfold fmt_pad. rewrite Z.abs_eq by lia. replace (x <? 0) with false by (symmetry; apply Z.ltb_ge; lia).
  destruct (digits10 x ltac:(lia)) as (d & -> & F & N & L). change (lenz (@nil Z)) with 0. cbn [app]. change ch_0 with 48.
  pose proof (lead_len d w F L ltac:(lia) ltac:(lia)) as Ld. rewrite <- len_lenz.
  split; [apply Forall_app; split; [|exact F]; apply Forall_forall; intros b Hb; apply repeat_spec in Hb; subst b; unfold digit_char; lia|].
  split; [rewrite number_of_zeros; exact N|]. rewrite len_app. unfold len at 1. rewrite repeat_length. lia.
Qed.

(** ** Windows of digits *)
Fixpoint win (ds : list Z) (d : Z) (k : nat) : list Z :=
  match k with O => [] | S k' => digit_or_zero ds d :: win ds (d + 1) k' end.

Lemma win_snoc ds k : forall d, win ds d (S k) = win ds d k ++ [digit_or_zero ds (d + Z.of_nat k)].
Proof.
  induction k as [|k IH]; intro d; [cbn; now rewrite Z.add_0_r|]. cbn [win app]. f_equal.
  change (digit_or_zero ds (d + 1) :: win ds (d + 1 + 1) k) with (win ds (d + 1) (S k)).
  rewrite IH. replace (d + 1 + Z.of_nat k) with (d + Z.of_nat (S k)) by lia. reflexivity.
Qed.

Lemma lenz_win ds k : forall d, lenz (win ds d k) = Z.of_nat k.
Proof. induction k as [|k IH]; intro d; [reflexivity|]. cbn [win]. rewrite lenz_cons, IH. lia. Qed.

Lemma win_app ds j : forall d k, win ds d (j + k) = win ds d j ++ win ds (d + Z.of_nat j) k.
Proof.
  induction j as [|j IH]; intros d k; [cbn; now rewrite Z.add_0_r|]. cbn [Nat.add win app]. f_equal. rewrite IH.
  replace (d + 1 + Z.of_nat j) with (d + Z.of_nat (S j)) by lia. reflexivity.
Qed.

Lemma doz_dig ds d : Forall dig ds -> dig (digit_or_zero ds d).
Proof.
  intro F. unfold digit_or_zero. destruct (Z.leb_spec 0 d); destruct (Z.ltb_spec d (lenz ds)); cbn [andb]; try (unfold dig; lia).
  rewrite Forall_forall in F. apply F. apply nth_In. unfold lenz in *. lia.
Qed.

Lemma win_dig ds k : Forall dig ds -> forall d, Forall dig (win ds d k).
Proof. intros F. induction k as [|k IH]; intro d; cbn [win]; constructor; auto. now apply doz_dig. Qed.

Definition shifted (ds : list Z) (e : Z) : Z :=
  if lenz ds <=? e then dval ds * 10000 ^ (e - lenz ds) else dval ds / 10000 ^ (lenz ds - e).

Lemma shifted_low ds e : Forall dig ds -> e <= 0 -> shifted ds e = 0.
Proof.
  intros F H. pose proof (dval_bound ds F) as B. pose proof (lenz_nonneg ds). unfold shifted.
  destruct (Z.leb_spec (lenz ds) e).
  - assert (E : lenz ds = 0) by lia. apply lenz_0 in E. subst ds. reflexivity.
  - apply Z.div_small. split; [lia|]. apply Z.lt_le_trans with (10000 ^ lenz ds); [lia|]. apply Z.pow_le_mono_r; lia.
Qed.

Lemma shifted_step ds e : Forall dig ds -> shifted ds (e + 1) = shifted ds e * 10000 + digit_or_zero ds e.
Proof.
  intros F. unfold digit_or_zero. destruct (Z.leb_spec 0 e) as [P|P].
  2:{ cbn [andb]. rewrite !shifted_low by (auto; lia). reflexivity. }
  destruct (Z.ltb_spec e (lenz ds)) as [L|L]; cbn [andb].
  - assert (Hs : forall k, 0 <= k <= lenz ds -> shifted ds k = dval (firstn (Z.to_nat k) ds)).
    { intros k Hk. unfold shifted. destruct (Z.leb_spec (lenz ds) k).
      - replace k with (lenz ds) by lia. rewrite Z.sub_diag, Z.pow_0_r, to_nat_lenz, firstn_all. lia.
      - rewrite (dval_firstn_div (Z.to_nat k) ds F). do 2 f_equal. rewrite lenz_skipn by lia. reflexivity. }
    rewrite !Hs by lia. rewrite Z2Nat.inj_add by lia. change (Z.to_nat 1) with 1%nat. rewrite Nat.add_1_r.
    rewrite (firstn_S_snoc ds (Z.to_nat e) (nth (Z.to_nat e) ds 0)).
    + rewrite dval_snoc. reflexivity.
    + apply nth_error_nth'. unfold lenz in L. lia.
  - unfold shifted. replace (lenz ds <=? e) with true by (symmetry; apply Z.leb_le; lia).
    replace (lenz ds <=? e + 1) with true by (symmetry; apply Z.leb_le; lia).
    replace (e + 1 - lenz ds) with (1 + (e - lenz ds)) by lia. rewrite pB_succ by lia. ring.
Qed.

Lemma dval_win ds a k : Forall dig ds -> a <= 0 -> dval (win ds a k) = shifted ds (a + Z.of_nat k).
Proof.
  intros F A. induction k as [|k IH].
  - rewrite Z.add_0_r. rewrite shifted_low by assumption. reflexivity.
  - rewrite win_snoc, dval_snoc, IH. replace (a + Z.of_nat (S k)) with (a + Z.of_nat k + 1) by lia.
    now rewrite shifted_step.
Qed.

(** ** The integral part *)
Lemma write_int_spec c ds k : Forall dig ds -> forall d, 0 < d ->
  exists t, write_int c k d ds = Ret t /\ Forall digit_char t /\ len t = 4 * Z.of_nat k /\ number_of t = dval (win ds d k).
Proof.
  intro F. induction k as [|k IH]; intros d Hd; cbn [write_int].
  - exists []. split; [reflexivity|]. split; [constructor|]. split; reflexivity.
  - pose proof (doz_dig ds d F) as Hdz. unfold dig in Hdz. rewrite dassert_ok by (apply Z.leb_le; lia). cbn [bind].
    destruct (IH (d + 1) ltac:(lia)) as (t & -> & Ft & Lt & Nt). cbn [bind].
    replace (0 <? d) with true by (symmetry; apply Z.ltb_lt; lia).
    destruct (fmt_pad_spec 4 (digit_or_zero ds d)) as (F1 & N1 & L1); [lia|change (10 ^ 4) with 10000; lia|].
    eexists. split; [reflexivity|]. change DEC_DIGITS with 4. split; [now apply Forall_app|].
    split; [rewrite len_app; lia|]. rewrite number_of_app, N1, Nt, Lt. cbn [win]. rewrite dval_cons, lenz_win, pB_ten by lia. reflexivity.
Qed.

Lemma write_int_spec0 c ds k : Forall dig ds -> 
  exists t, write_int c (S k) 0 ds = Ret t /\ Forall digit_char t /\ number_of t = dval (win ds 0 (S k)) /\
    (digit_or_zero ds 0 <> 0 \/ k = O -> lead_ok t).
Proof.
  intros F. cbn [write_int]. pose proof (doz_dig ds 0 F) as Hdz. unfold dig in Hdz.
  rewrite dassert_ok by (apply Z.leb_le; lia). cbn [bind].
  destruct (write_int_spec c ds k F (0 + 1) ltac:(lia)) as (t & E & Ft & Lt & Nt). rewrite E. cbn [bind].
  change (0 <? 0) with false. cbv iota. destruct (fmt_int_spec (digit_or_zero ds 0)) as (F1 & N1 & L1); [lia|].
  eexists. split; [reflexivity|]. split; [now apply Forall_app|].
  split; [rewrite number_of_app, N1, Nt, Lt; cbn [win]; rewrite dval_cons, lenz_win, pB_ten by lia; reflexivity|].
  intros [H|H].
  - destruct L1 as [L1|(b & r & L1 & N)]; [rewrite L1, number_of_1 in N1; lia|].
    right. rewrite L1. exists b, (r ++ t). auto.
  - subst k. cbn [write_int] in E. injection E as <-. now rewrite app_nil_r.
Qed.

(** ** The fractional part *)
Lemma div10_spec k : forall d, 0 <= d -> div10 k d = d / 10 ^ Z.of_nat k.
Proof.
  induction k as [|k IH]; intros d H; cbn [div10].
  - now rewrite Z.pow_0_r, Z.div_1_r.
  - rewrite quot10 by lia. rewrite IH by (apply Z.div_pos; lia). rewrite Z.div_div by (try lia; apply pT_pos; lia).
    rewrite Nat2Z.inj_succ, Z.pow_succ_r by lia. reflexivity.
Qed.

Lemma write_frac_spec ds dsc k : Forall dig ds -> forall sc d, 0 <= sc -> sc + 4 * Z.of_nat k - 3 <= dsc <= sc + 4 * Z.of_nat k ->
  let t := write_frac k sc d dsc ds in
  Forall digit_char t /\ (k <> O -> len t = dsc - sc) /\
  (k <> O -> number_of t = dval (win ds d k) / 10 ^ (sc + 4 * Z.of_nat k - dsc)).
Proof.
  intro F. induction k as [|k IH]; intros sc d Hs Hk t.
  - unfold t. cbn [write_frac]. split; [constructor|]. split; congruence.
  - unfold t. clear t. cbn [write_frac]. change DEC_DIGITS with 4.
    pose proof (doz_dig ds d F) as Hdz. unfold dig in Hdz. set (z := digit_or_zero ds d) in *.
    destruct (Z.leb_spec (sc + 4) dsc) as [L|L].
    + destruct (fmt_pad_spec 4 z) as (F1 & N1 & L1); [lia|change (10 ^ 4) with 10000; lia|].
      destruct k as [|k'].
      * cbn [write_frac]. rewrite app_nil_r. split; [exact F1|]. split; intros _; [lia|].
        rewrite N1. replace (sc + 4 * Z.of_nat 1 - dsc) with 0 by lia. rewrite Z.pow_0_r, Z.div_1_r.
        cbn [win]. rewrite dval_cons. fold z. rewrite lenz_nil. cbn [dval]. lia.
      * destruct (IH (sc + 4) (d + 1)) as (F2 & L2 & N2); [lia|lia|]. specialize (L2 ltac:(discriminate)). specialize (N2 ltac:(discriminate)).
        split; [now apply Forall_app|]. split; intros _; [rewrite len_app; lia|].
        rewrite number_of_app, N1, N2, L2. cbn [win]. fold z.
        change (digit_or_zero ds (d + 1) :: win ds (d + 1 + 1) k') with (win ds (d + 1) (S k')).
        rewrite (dval_cons z (win ds (d + 1) (S k'))). rewrite lenz_win, pB_ten by lia.
        set (W := dval (win ds (d + 1) (S k'))). set (e := sc + 4 * Z.of_nat (S (S k')) - dsc).
        replace (sc + 4 + 4 * Z.of_nat (S k') - dsc) with e by (unfold e; lia).
        replace (4 * Z.of_nat (S k')) with (dsc - (sc + 4) + e) by (unfold e; lia).
        rewrite Z.pow_add_r by (unfold e; lia). rewrite Z.mul_assoc. rewrite Z.div_add_l; [reflexivity|].
        pose proof (pT_pos e ltac:(unfold e; lia)). lia.
    + assert (k = O) by lia. subst k. cbn [write_frac]. rewrite app_nil_r.
      set (wd := dsc - sc). assert (Hw : 0 < wd < 4) by (unfold wd; lia).
      rewrite div10_spec by lia. rewrite Z2Nat.id by lia.
      assert (Hp : 10 ^ 4 = 10 ^ wd * 10 ^ (4 - wd)) by (rewrite <- Z.pow_add_r by lia; f_equal; lia).
      change (10 ^ 4) with 10000 in Hp.
      pose proof (pT_pos (4 - wd) ltac:(lia)) as P1. pose proof (pT_pos wd ltac:(lia)) as P2.
      destruct (fmt_pad_spec wd (z / 10 ^ (4 - wd))) as (F1 & N1 & L1); [lia| |].
      { split; [apply Z.div_pos; lia|]. apply Z.div_lt_upper_bound; lia. }
      split; [exact F1|]. split; intros _; [exact L1|]. rewrite N1.
      replace (sc + 4 * Z.of_nat 1 - dsc) with (4 - wd) by (unfold wd; lia). cbn [win]. rewrite dval_cons. fold z.
      rewrite lenz_nil. cbn [dval]. f_equal. lia.
Qed.
