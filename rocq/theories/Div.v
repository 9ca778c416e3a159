(** * Div: division (schoolbook, Knuth algorithm D). *)
From Coq Require Import ZArith QArith Qround Qpower Qabs List Bool Lia Lqa.
From Verif Require Import Base Var Spec QDec Digits Arith Strip Round Trunc AddSub Signed Make Mul.
Import ListNotations.
Open Scope Z_scope.

(** ** Single-digit divisor *)
Lemma div_short_spec c d : 1 <= d <= 9999 -> forall k us carry, (k <= length us)%nat -> Forall dig us ->
  0 <= carry < d ->
  exists qs, div_short c k us d carry = Ret qs /\ Forall dig qs /\ length qs = k /\
    dval qs = (carry * 10000 ^ Z.of_nat k + dval (firstn k us)) / d.
Proof.
  intro Hd. induction k as [|k IH]; intros us carry Lk Du Hc.
  - exists []. split; [reflexivity|]. split; [constructor|]. split; [reflexivity|]. cbn [firstn].
    change (10000 ^ Z.of_nat 0) with 1. cbn [dval]. change (dval []) with 0. rewrite Z.div_small; lia.
  - destruct us as [|u us]; [cbn in Lk; lia|]. cbn [div_short].
    pose proof (Forall_inv Du) as Bu. pose proof (Forall_inv_tail Du) as Dt. unfold dig in Bu.
    change NBASE with 10000. rewrite i32_ok by lia. cbn [bind]. rewrite i32_ok by lia. cbn [bind].
    destruct (Z.eqb_spec d 0); [lia|]. cbn [length] in Lk.
    set (x := carry * 10000 + u) in *. assert (Hx : 0 <= x < d * 10000) by (unfold x; nia).
    rewrite Z.quot_div_nonneg, Z.rem_mod_nonneg by lia.
    pose proof (Z.mod_pos_bound x d ltac:(lia)) as Mx. pose proof (Z.div_mod x d ltac:(lia)) as DM.
    assert (Qx : 0 <= x / d < 10000).
    { split; [apply Z.div_pos; lia|apply Z.div_lt_upper_bound; lia]. }
    destruct (IH us (x mod d)) as (qs & E & Dq & Lq & Vq); [lia|exact Dt|lia|].
    rewrite E. cbn [bind]. exists (as_i16 (x / d) :: qs). rewrite as_i16_id by lia.
    split; [reflexivity|]. split; [constructor; [unfold dig; lia|exact Dq]|]. split; [cbn; lia|].
    cbn [firstn]. rewrite !dval_cons, Vq.
    assert (Lf : lenz (firstn k us) = Z.of_nat k) by (unfold lenz; rewrite firstn_length; lia).
    assert (Lq' : lenz qs = Z.of_nat k) by (unfold lenz; lia).
    rewrite Lf, Lq'. replace (Z.of_nat (S k)) with (1 + Z.of_nat k) by lia. rewrite pB_succ by lia.
    set (P := 10000 ^ Z.of_nat k) in *. set (T := dval (firstn k us)) in *.
    replace (carry * (10000 * P) + (u * P + T)) with (x * P + T) by (unfold x; ring).
    assert (EX : x * P + T = (x mod d * P + T) + (x / d * P) * d).
    { transitivity ((d * (x / d) + x mod d) * P + T); [now rewrite <- DM|ring]. }
    rewrite EX, Z.div_add by lia. ring.
Qed.

(** ** Scaling *)
Lemma scale_up_spec c d : 0 <= d <= 9999 -> forall ds, Forall dig ds ->
  exists cr r, scale_up c ds d = Ret (cr, r) /\ 0 <= cr <= d /\ Forall dig r /\ lenz r = lenz ds /\
    d * dval ds = cr * 10000 ^ lenz ds + dval r.
Proof.
  intro Hd. induction 1 as [|x t Hx Ht IH].
  - exists 0, []. cbn. repeat split; auto; lia.
  - destruct IH as (cr & r & E & Bc & Dr & Lr & V). cbn [scale_up]. rewrite E. cbn [bind].
    unfold dig in Hx. assert (P : 0 <= x * d <= 9999 * d) by nia.
    rewrite i32_ok by lia. cbn [bind]. rewrite i32_ok by lia. cbn [bind]. change NBASE with 10000.
    rewrite Z.quot_div_nonneg, Z.rem_mod_nonneg by lia. set (y := cr + x * d) in *.
    pose proof (Z.mod_pos_bound y 10000 ltac:(lia)). pose proof (Z.div_mod y 10000 ltac:(lia)).
    rewrite as_i16_id by lia.
    exists (y / 10000), (y mod 10000 :: r). split; [reflexivity|]. split; [lia|].
    split; [constructor; [unfold dig; lia|exact Dr]|]. rewrite !lenz_cons. split; [lia|].
    rewrite !dval_cons, Lr, pB_succ by apply lenz_nonneg.
    set (B := 10000 ^ lenz t) in *.
    replace (d * (x * B + dval t)) with (x * d * B + d * dval t) by ring. rewrite V.
    replace (x * d * B + (cr * B + dval r)) with (y * B + dval r) by (unfold y; ring).
    transitivity ((10000 * (y / 10000) + y mod 10000) * B + dval r); [now rewrite <- H0|ring].
Qed.

(** ** Multiply and subtract, add back *)
Lemma mul_sub_spec c q : 0 <= q <= 9999 -> forall vs us, length vs = length us -> Forall dig vs -> Forall dig us ->
  exists cr b r, mul_sub c vs us q = Ret (cr, b, r) /\ 0 <= cr <= 9999 /\ (b = 0 \/ b = -1) /\
    Forall dig r /\ lenz r = lenz us /\ dval us - q * dval vs = dval r + (b - cr) * 10000 ^ lenz us.
Proof.
  intro Hq. induction vs as [|v vs IH]; intros us L Dv Du; destruct us as [|u us]; try discriminate L.
  - exists 0, 0, []. cbn. repeat split; auto; lia.
  - injection L as L. destruct (IH us L (Forall_inv_tail Dv) (Forall_inv_tail Du)) as (cr & b & r & E & Bc & Bb & Dr & Lr & V).
    pose proof (Forall_inv Dv) as Bv. pose proof (Forall_inv Du) as Bu. unfold dig in Bv, Bu.
    cbn [mul_sub]. rewrite E. cbn [bind]. assert (P : 0 <= v * q <= 9999 * 9999) by nia.
    rewrite i32_ok by lia. cbn [bind]. rewrite i32_ok by lia. cbn [bind]. change NBASE with 10000.
    set (y := cr + v * q) in *. rewrite Z.rem_mod_nonneg, Z.quot_div_nonneg by lia.
    pose proof (Z.mod_pos_bound y 10000 ltac:(lia)) as My. pose proof (Z.div_mod y 10000 ltac:(lia)) as DM.
    rewrite i32_ok by lia. cbn [bind]. rewrite i32_ok by lia. cbn [bind].
    assert (Ll : lenz vs = lenz us) by (unfold lenz; lia).
    destruct (Z.ltb_spec (b - y mod 10000 + u) 0) as [N|N].
    + rewrite i32_ok by lia. cbn [bind]. rewrite as_i16_id by lia.
      exists (y / 10000), (-1), (b - y mod 10000 + u + 10000 :: r). split; [reflexivity|]. split; [lia|].
      split; [now right|]. split; [constructor; [unfold dig; lia|exact Dr]|]. rewrite !lenz_cons. split; [lia|].
      rewrite !dval_cons, Lr, Ll, pB_succ by apply lenz_nonneg. set (B := 10000 ^ lenz us) in *.
      replace (u * B + dval us - q * (v * B + dval vs)) with (u * B - v * q * B + (dval us - q * dval vs)) by ring.
      rewrite V. replace (v * q) with (y - cr) by (unfold y; ring).
      transitivity (u * B - ((10000 * (y / 10000) + y mod 10000) - cr) * B + (dval r + (b - cr) * B)); [now rewrite <- DM|ring].
    + cbn [bind]. rewrite as_i16_id by lia.
      exists (y / 10000), 0, (b - y mod 10000 + u :: r). split; [reflexivity|]. split; [lia|].
      split; [now left|]. split; [constructor; [unfold dig; lia|exact Dr]|]. rewrite !lenz_cons. split; [lia|].
      rewrite !dval_cons, Lr, Ll, pB_succ by apply lenz_nonneg. set (B := 10000 ^ lenz us) in *.
      replace (u * B + dval us - q * (v * B + dval vs)) with (u * B - v * q * B + (dval us - q * dval vs)) by ring.
      rewrite V. replace (v * q) with (y - cr) by (unfold y; ring).
      transitivity (u * B - ((10000 * (y / 10000) + y mod 10000) - cr) * B + (dval r + (b - cr) * B)); [now rewrite <- DM|ring].
Qed.

Lemma add_back_spec c : forall vs us, length vs = length us -> Forall dig vs -> Forall dig us ->
  exists cr r, add_back c vs us = Ret (cr, r) /\ (cr = 0 \/ cr = 1) /\
    Forall dig r /\ lenz r = lenz us /\ dval us + dval vs = dval r + cr * 10000 ^ lenz us.
Proof.
  induction vs as [|v vs IH]; intros us L Dv Du; destruct us as [|u us]; try discriminate L.
  - exists 0, []. cbn. repeat split; auto; lia.
  - injection L as L. destruct (IH us L (Forall_inv_tail Dv) (Forall_inv_tail Du)) as (cr & r & E & Bc & Dr & Lr & V).
    pose proof (Forall_inv Dv) as Bv. pose proof (Forall_inv Du) as Bu. unfold dig in Bv, Bu.
    cbn [add_back]. rewrite E. cbn [bind]. rewrite i32_ok by lia. cbn [bind]. rewrite i32_ok by lia. cbn [bind].
    change NBASE with 10000. assert (Ll : lenz vs = lenz us) by (unfold lenz; lia).
    destruct (Z.leb_spec 10000 (cr + (u + v))) as [N|N]; rewrite as_i16_id by lia.
    + exists 1, (cr + (u + v) - 10000 :: r). split; [reflexivity|]. split; [auto|].
      split; [constructor; [unfold dig; lia|exact Dr]|]. rewrite !lenz_cons. split; [lia|].
      rewrite !dval_cons, Lr, Ll, pB_succ by apply lenz_nonneg. set (B := 10000 ^ lenz us) in *. nia.
    + exists 0, (cr + (u + v) :: r). split; [reflexivity|]. split; [auto|].
      split; [constructor; [unfold dig; lia|exact Dr]|]. rewrite !lenz_cons. split; [lia|].
      rewrite !dval_cons, Lr, Ll, pB_succ by apply lenz_nonneg. set (B := 10000 ^ lenz us) in *. nia.
Qed.

(** ** The quotient digit estimate *)
Lemma qhat_loop_spec c d1 d2 n2 u2 : 1 <= d1 <= 9999 -> dig d2 -> dig u2 -> 0 <= n2 ->
  forall fuel q, 0 <= q <= 9999 -> Z.of_nat fuel > q -> 0 <= n2 - q * d1 <= 9999 + 9999 ->
  exists r, qhat_loop c fuel q d1 d2 n2 u2 = Ret r /\ 0 <= r <= q /\
    r * (d1 * 10000 + d2) <= n2 * 10000 + u2 /\
    (forall p, 0 <= p <= q -> p * (d1 * 10000 + d2) <= n2 * 10000 + u2 -> p <= r).
Proof.
  intros H1 H2 H3 Hn. unfold dig in H2, H3.
  induction fuel as [|fuel IH]; intros q Hq Hf Hr; [lia|]. cbn [qhat_loop].
  assert (P2 : 0 <= d2 * q <= 9999 * 9999) by nia. assert (P1 : 0 <= q * d1 <= 9999 * 9999) by nia.
  rewrite i32_ok by lia. cbn [bind]. rewrite i32_ok by lia. cbn [bind]. rewrite i32_ok by lia. cbn [bind].
  change NBASE with 10000. rewrite i32_ok by lia. cbn [bind]. rewrite i32_ok by lia. cbn [bind].
  destruct (Z.ltb_spec ((n2 - q * d1) * 10000 + u2) (d2 * q)) as [L|L].
  - assert (Hq1 : 1 <= q) by (destruct (Z.eq_dec q 0) as [->|]; lia).
    rewrite i32_ok by lia. cbn [bind].
    destruct (IH (q - 1)) as (r & E & B & V & M); [lia|lia| |].
    + assert (n2 - q * d1 < 10000) by nia. lia.
    + exists r. split; [exact E|]. split; [lia|]. split; [exact V|].
      intros p Hp Hv. apply M; [|exact Hv]. assert (p <> q) by (intros ->; lia). lia.
  - exists q. split; [reflexivity|]. split; [lia|]. split; [lia|]. intros p Hp _. lia.
Qed.

(** ** One step of the long division *)
Lemma div_step_spec c vs us : Forall dig vs -> Forall dig us -> 2 <= lenz vs -> lenz vs + 1 <= lenz us ->
  0 < nth 0 vs 0 ->
  dval (firstn (length vs) us) < dval vs ->
  let W := dval (firstn (S (length vs)) us) in
  exists us', div_step c (0 :: vs) us = Ret (W / dval vs, us') /\ Forall dig us' /\ lenz us' = lenz us /\
    dval (firstn (S (length vs)) us') = W mod dval vs /\ skipn (S (length vs)) us' = skipn (S (length vs)) us.
Proof.
  intros Dv Du Lv Lu Hv0 Hinv W.
  destruct vs as [|d1 [|d2 vr]]; [cbn in Lv; lia|cbn in Lv; lia|].
  destruct us as [|u0 [|u1 [|u2 ur]]]; try (unfold lenz in Lu, Lv; cbn [length] in Lu, Lv; lia).
  cbn [nth] in Hv0.
  set (vs := d1 :: d2 :: vr) in *. set (us := u0 :: u1 :: u2 :: ur) in *.
  assert (B1 : dig d1) by (exact (Forall_inv Dv)).
  assert (B2 : dig d2) by (exact (Forall_inv (Forall_inv_tail Dv))).
  assert (C0 : dig u0) by (exact (Forall_inv Du)).
  assert (C1 : dig u1) by (exact (Forall_inv (Forall_inv_tail Du))).
  assert (C2 : dig u2) by (exact (Forall_inv (Forall_inv_tail (Forall_inv_tail Du)))).
  pose proof B1 as B1'. pose proof C0 as C0'. pose proof C1 as C1'. unfold dig in B1', C0', C1'.
  set (m := length vr). set (win := firstn (S (length vs)) us).
  assert (Ew : win = u0 :: u1 :: u2 :: firstn m ur) by (unfold win, vs, us; cbn [length firstn]; reflexivity).
  assert (Dw : Forall dig win) by (apply Forall_dig_firstn; exact Du).
  set (M := Z.of_nat m). assert (HM : 0 <= M) by (unfold M; lia).
  assert (Lvr : lenz vr = M) by reflexivity.
  assert (Lfr : lenz (firstn m ur) = M).
  { unfold lenz. rewrite firstn_length. fold m. unfold lenz, us, vs in Lu. cbn [length] in Lu. fold m in Lu. unfold M. lia. }
  set (PM := 10000 ^ M). assert (PMp : 0 < PM) by (apply pB_pos'; lia).
  set (rv := dval vr). set (ru := dval (firstn m ur)).
  assert (Brv : 0 <= rv < PM).
  { pose proof (dval_bound vr (Forall_inv_tail (Forall_inv_tail Dv))) as B. rewrite Lvr in B. exact B. }
  assert (Bru : 0 <= ru < PM).
  { assert (Dr : Forall dig (firstn m ur)) by (apply Forall_dig_firstn; do 3 apply Forall_inv_tail in Du; exact Du).
    pose proof (dval_bound _ Dr) as B. rewrite Lfr in B. exact B. }
  set (V := dval vs) in *.
  assert (EV : V = (d1 * 10000 + d2) * PM + rv).
  { unfold V, vs. rewrite !dval_cons, lenz_cons, Lvr, pB_succ by lia. fold PM rv. ring. }
  assert (EW : W = ((u0 * 10000 + u1) * 10000 + u2) * PM + ru).
  { unfold W. fold win. rewrite Ew, !dval_cons, !lenz_cons, Lfr, !pB_succ by lia. fold PM ru. ring. }
  assert (VP : 0 < V) by (rewrite EV; unfold dig in B2; nia).
  (* the invariant on the first digits *)
  assert (WI : W < V * 10000).
  { assert (EI : exists z, W = dval (firstn (length vs) us) * 10000 + z /\ 0 <= z <= 9999).
    { unfold W. destruct (nth_error us (length vs)) as [z|] eqn:Ez.
      - rewrite (firstn_S_snoc us _ z Ez), dval_snoc. exists z. split; [reflexivity|].
        eapply (proj1 (Forall_forall _ _) Du), nth_error_In, Ez.
      - apply nth_error_None in Ez. unfold lenz in Lu. lia. }
    destruct EI as (z & -> & Bz). lia. }
  assert (W0 : 0 <= W) by (rewrite EW; unfold dig in C2; nia).
  assert (U0 : u0 <= d1).
  { destruct (Z_le_gt_dec u0 d1) as [L|G]; [exact L|exfalso].
    assert (V < (d1 + 1) * 10000 * PM) by (rewrite EV; unfold dig in B2; nia).
    assert (u0 * 10000 * 10000 * PM <= W) by (rewrite EW; unfold dig in C2; nia). nia. }
  unfold div_step. change (length (0 :: vs)) with (S (length vs)).
  change (index (0 :: vs) 1) with (Ret d1). change (index (0 :: vs) 2) with (Ret d2).
  change (get_unchecked us 0) with (Ret u0). change (get_unchecked us 1) with (Ret u1).
  change (get_unchecked us 2) with (Ret u2). cbn [bind]. change NBASE with 10000.
  rewrite i32_ok by lia. cbn [bind]. rewrite i32_ok by lia. cbn [bind].
  set (n2 := u0 * 10000 + u1) in *. set (Q := W / V).
  pose proof (Z.div_mod W V ltac:(lia)) as DM. fold Q in DM.
  pose proof (Z.mod_pos_bound W V VP) as MB.
  assert (BQ : 0 <= Q <= 9999).
  { split; [apply Z.div_pos; lia|]. assert (Q < 10000); [|lia]. apply Z.div_lt_upper_bound; lia. }
  assert (Wq : forall p, p * V <= W -> p <= Q).
  { intros p Hp. apply Z.div_le_lower_bound; lia. }
  assert (Same : Q = 0 -> exists us', Ret (0, us) = Ret (Q, us') /\ Forall dig us' /\ lenz us' = lenz us /\
    dval (firstn (S (length vs)) us') = W mod V /\ skipn (S (length vs)) us' = skipn (S (length vs)) us).
  { intro Q0. exists us. rewrite Q0. split; [reflexivity|]. split; [exact Du|]. split; [reflexivity|].
    split; [|reflexivity]. fold W. rewrite Q0 in DM. lia. }
  destruct (Z.eqb_spec n2 0) as [N0|N0].
  { apply Same. unfold Q. apply Z.div_small. split; [exact W0|]. rewrite EW, EV, N0. unfold dig in B2, C2. nia. }
  (* initial estimate *)
  assert (G : exists q0, (if u0 =? d1 then Ret 9999 else if d1 =? 0 then Panic WDivZero else Ret (Z.quot n2 d1)) = Ret q0 /\
     0 <= q0 <= 9999 /\ 0 <= n2 - q0 * d1 <= 19998 /\ Q <= q0).
  { destruct (Z.eqb_spec u0 d1) as [E0|E0].
    - exists 9999. split; [reflexivity|]. split; [lia|]. split; [unfold n2; lia|lia].
    - destruct (Z.eqb_spec d1 0); [lia|]. exists (n2 / d1).
      rewrite Z.quot_div_nonneg by (unfold n2; lia). split; [reflexivity|].
      pose proof (Z.div_mod n2 d1 ltac:(lia)) as D1. pose proof (Z.mod_pos_bound n2 d1 ltac:(lia)) as Mo.
      assert (Bq : 0 <= n2 / d1 < 10000).
      { split; [apply Z.div_pos; unfold n2; lia|apply Z.div_lt_upper_bound; unfold n2; lia]. }
      split; [lia|]. split; [lia|].
      apply Z.div_le_lower_bound; [lia|].
      (* Q * d1 <= n2 *)
      assert (Q * V <= W) by lia. 
      assert (Q * (d1 * (10000 * PM)) < (n2 + 1) * (10000 * PM)).
      { apply Z.le_lt_trans with (Q * V).
        - apply Z.mul_le_mono_nonneg_l; [lia|]. rewrite EV. unfold dig in B2. nia.
        - apply Z.le_lt_trans with W; [lia|]. rewrite EW. unfold dig in C2. nia. }
      assert (Q * d1 < n2 + 1) by nia. lia. }
  destruct G as (q0 & EG & Bq0 & Rq0 & Qq0).
  change (10000 - 1) with 9999. rewrite EG. cbn [bind]. clear EG.
  destruct (qhat_loop_spec c d1 d2 n2 u2 ltac:(lia) B2 C2 ltac:(unfold n2; lia) (S (Z.to_nat q0)) q0)
    as (q & Eq & Bq & Vq & Mq); [lia|lia|lia|].
  rewrite Eq. cbn [bind]. clear Eq.
  (* Q <= q <= Q + 1 *)
  assert (QL : Q <= q).
  { apply Mq; [lia|]. assert (Q * V <= W) by lia.
    assert (Q * ((d1 * 10000 + d2) * PM) < (n2 * 10000 + u2 + 1) * PM).
    { apply Z.le_lt_trans with (Q * V).
      - apply Z.mul_le_mono_nonneg_l; [lia|]. rewrite EV. lia.
      - apply Z.le_lt_trans with W; [lia|]. rewrite EW. lia. }
    assert (Q * (d1 * 10000 + d2) < n2 * 10000 + u2 + 1) by nia. lia. }
  assert (QU : q <= Q + 1).
  { assert ((q - 1) * V <= W).
    { assert (q * V <= W + q * PM).
      { rewrite EV, EW. assert (q * (d1 * 10000 + d2) * PM <= (n2 * 10000 + u2) * PM) by nia. nia. }
      assert (q * PM <= V) by (rewrite EV; unfold dig in B2; nia). lia. }
    apply Wq in H. lia. }
  destruct (Z.ltb_spec 0 q) as [Pq|Pq].
  2:{ assert (q = 0) by lia. subst q. replace (as_i16 0) with 0 by reflexivity. apply Same. lia. }
  assert (Lw : length (0 :: vs) = length win).
  { rewrite Ew. unfold vs. cbn [length]. fold m. rewrite firstn_length. unfold lenz in Lfr. rewrite firstn_length in Lfr. unfold M in Lfr. lia. }
  assert (D0 : Forall dig (0 :: vs)) by (constructor; [unfold dig; lia|exact Dv]).
  fold win.
  destruct (mul_sub_spec c q ltac:(lia) (0 :: vs) win Lw D0 Dw) as (cr & b & r & Em & Bc & Bb & Dr & Lr & Vr).
  rewrite Em. cbn [bind].
  assert (LW : lenz win = 1 + lenz vs) by (unfold lenz; rewrite <- Lw; cbn [length]; lia).
  assert (V0 : dval (0 :: vs) = V) by (rewrite dval_cons; fold V; lia).
  rewrite V0 in Vr. fold W in Vr. change (dval win) with W in Vr.
  assert (VB : V < 10000 ^ lenz vs) by (apply dval_bound; exact Dv).
  pose proof (dval_bound _ Dr) as Br. rewrite Lr in Br.
  assert (PW : 10000 ^ lenz win = 10000 * 10000 ^ lenz vs) by (rewrite LW; apply pB_succ; lia).
  set (PL := 10000 ^ lenz vs) in *.
  (* the carry out of the leading zero digit *)
  assert (C0c : cr = 0).
  { assert (E1 : (b - cr) * (10000 * PL) = W - q * V - dval r) by lia.
    assert (W < 10000 * PL) by lia. assert (q * V < 10000 * PL) by nia.
    assert (- 2 * (10000 * PL) < (b - cr) * (10000 * PL)) by lia.
    assert (-2 < b - cr) by nia.
    (* cr = (carry + 0*q)/10000 with carry <= 9999: read off the definition *)
    assert (L' : length vs = length (tl win)) by (rewrite Ew in *; cbn [tl length] in *; lia).
    cbn [mul_sub] in Em. rewrite Ew in Em.
    destruct (mul_sub_spec c q ltac:(lia) vs (tl win) L' Dv) as (cr' & b' & r' & Em' & Bc' & _).
    { rewrite Ew in *. cbn [tl]. exact (Forall_inv_tail Dw). }
    rewrite Ew in Em'. cbn [tl] in Em'. rewrite Em' in Em. cbn [bind] in Em.
    rewrite i32_ok in Em by lia. cbn [bind] in Em. rewrite i32_ok in Em by lia. cbn [bind] in Em.
    change NBASE with 10000 in Em.
    rewrite Z.mul_0_l, Z.add_0_r in Em. rewrite (Z.quot_small cr' 10000) in Em by lia.
    destruct (i32 c (b' - Z.rem cr' 10000)) as [x1| | |]; try discriminate Em. cbn [bind] in Em.
    destruct (i32 c (x1 + u0)) as [x2| | |]; try discriminate Em. cbn [bind] in Em.
    destruct (x2 <? 0).
    - destruct (i32 c (x2 + 10000)); try discriminate Em. cbn [bind] in Em. injection Em as <- _ _. reflexivity.
    - injection Em as <- _ _. reflexivity. }
  subst cr. rewrite dassert_ok by reflexivity. cbn [bind].
  assert (FA : forall r' : list Z, lenz r' = lenz win -> firstn (S (length vs)) (r' ++ skipn (S (length vs)) us) = r').
  { intros r' L'. assert (length r' = S (length vs)) by (unfold lenz in L', LW; lia).
    rewrite <- H. rewrite firstn_app, Nat.sub_diag, firstn_all. cbn [firstn]. apply app_nil_r. }
  assert (FS : forall r' : list Z, lenz r' = lenz win -> skipn (S (length vs)) (r' ++ skipn (S (length vs)) us) = skipn (S (length vs)) us).
  { intros r' L'. assert (length r' = S (length vs)) by (unfold lenz in L', LW; lia).
    rewrite <- H at 1. rewrite skipn_app, Nat.sub_diag, skipn_all. reflexivity. }
  assert (FL : forall r' : list Z, lenz r' = lenz win -> lenz (r' ++ skipn (S (length vs)) us) = lenz us).
  { intros r' L'. rewrite lenz_app, L'. rewrite <- (firstn_skipn (S (length vs)) us) at 2. rewrite lenz_app. reflexivity. }
  assert (FD : forall r', Forall dig r' -> Forall dig (r' ++ skipn (S (length vs)) us)).
  { intros r' Dr'. apply Forall_app. split; [exact Dr'|]. now apply Forall_dig_skipn. }
  destruct (Z.eqb_spec b 0) as [Hb|Hb].
  - subst b. assert (Rq : dval r = W - q * V) by lia.
    assert (q = Q) by (apply Z.le_antisymm; [apply Wq; lia|exact QL]). subst q.
    rewrite as_i16_id by lia. exists (r ++ skipn (S (length vs)) us). split; [reflexivity|].
    split; [now apply FD|]. split; [now apply FL|]. split; [|now apply FS]. rewrite FA by exact Lr. lia.
  - assert (b = -1) by lia. subst b.
    assert (q = Q + 1).
    { assert (q <> Q); [intros ->|lia]. assert (W mod V = dval r + (-1 - 0) * 10000 ^ lenz win) by lia. lia. }
    subst q.
    destruct (add_back_spec c (0 :: vs) r) as (cr & r' & Ea & Bcr & Dr' & Lr' & Vr').
    { rewrite Lw. unfold lenz in Lr. lia. }
    { exact D0. }
    { exact Dr. }
    rewrite Ea. cbn [bind]. rewrite V0, Lr in Vr'.
    pose proof (dval_bound _ Dr') as Br'. rewrite Lr', Lr in Br'.
    assert (VW : V < 10000 ^ lenz win) by lia.
    assert (cr = 1) by (destruct Bcr as [->| ->]; [exfalso|reflexivity]; lia). subst cr.
    rewrite dassert_ok by reflexivity. cbn [bind]. replace (Q + 1 - 1) with Q by lia.
    rewrite as_i16_id by lia. exists (r' ++ skipn (S (length vs)) us). split; [reflexivity|].
    split; [now apply FD|]. split; [apply FL; lia|]. split; [|apply FS; lia]. rewrite FA by lia. lia.
Qed.

(** ** The whole long division *)
Lemma div_long_spec c vs : Forall dig vs -> 2 <= lenz vs -> 0 < nth 0 vs 0 ->
  forall k us, Forall dig us -> (length vs + k <= length us)%nat ->
  dval (firstn (length vs) us) < dval vs ->
  exists qs, div_long c k (0 :: vs) us = Ret qs /\ Forall dig qs /\ length qs = k /\
    dval qs = dval (firstn (length vs + k) us) / dval vs.
Proof.
  intros Dv Lv Hv0. induction k as [|k IH]; intros us Du Lu Hinv.
  - exists []. split; [reflexivity|]. split; [constructor|]. split; [reflexivity|].
    rewrite Nat.add_0_r. rewrite Z.div_small; [reflexivity|]. split; [|exact Hinv].
    apply dval_bound. now apply Forall_dig_firstn.
  - cbn [div_long].
    destruct (div_step_spec c vs us Dv Du Lv) as (us' & E & Du' & Lu' & Vu' & Su'); [unfold lenz; lia|exact Hv0|exact Hinv|].
    rewrite E. cbn [bind]. set (W := dval (firstn (S (length vs)) us)) in *.
    assert (VP : 0 < dval vs).
    { pose proof (dval_bound _ (Forall_dig_firstn (length vs) us Du)). lia. }
    pose proof (Z.mod_pos_bound W (dval vs) VP) as MB. pose proof (Z.div_mod W (dval vs) ltac:(lia)) as DM.
    destruct us' as [|z us'']; [unfold lenz in Lu'; cbn in Lu'; lia|]. cbn [tl].
    (* the leading digit has become zero *)
    assert (Lf : lenz (firstn (length vs) us'') = lenz vs).
    { unfold lenz in *. cbn [length] in Lu'. rewrite firstn_length. lia. }
    assert (Z0 : z = 0 /\ dval (firstn (length vs) us'') = W mod dval vs).
    { cbn [firstn] in Vu'. rewrite dval_cons, Lf in Vu'.
      pose proof (Forall_inv Du') as Bz. unfold dig in Bz.
      pose proof (dval_bound _ (Forall_dig_firstn (length vs) us'' (Forall_inv_tail Du'))) as Bf. rewrite Lf in Bf.
      pose proof (dval_bound _ Dv) as Bv. assert (z = 0) by nia. subst z. lia. }
    destruct Z0 as [-> Zv].
    destruct (IH us'') as (qs & Eq & Dq & Lq & Vq).
    { exact (Forall_inv_tail Du'). }
    { unfold lenz in Lu'. cbn [length] in Lu'. lia. }
    { rewrite Zv. lia. }
    rewrite Eq. cbn [bind]. exists (W / dval vs :: qs). split; [reflexivity|].
    assert (BQ : 0 <= W / dval vs < 10000).
    { split; [apply Z.div_pos; [|lia]; apply dval_bound; now apply Forall_dig_firstn|].
      apply Z.div_lt_upper_bound; [lia|].
      unfold W. destruct (nth_error us (length vs)) as [y|] eqn:Ey; [|apply nth_error_None in Ey; lia].
      rewrite (firstn_S_snoc us _ y Ey), dval_snoc.
      assert (dig y) by (eapply (proj1 (Forall_forall _ _) Du), nth_error_In, Ey). unfold dig in *. lia. }
    split; [constructor; [unfold dig; lia|exact Dq]|]. split; [cbn; lia|].
    rewrite dval_cons, Vq. assert (Lq' : lenz qs = Z.of_nat k) by (unfold lenz; lia). rewrite Lq'.
    (* split the dividends *)
    assert (S1 : dval (firstn (length vs + S k) us) = W * 10000 ^ Z.of_nat k + dval (firstn k (skipn (S (length vs)) us))).
    { replace (length vs + S k)%nat with (S (length vs) + k)%nat by lia.
      rewrite <- (firstn_skipn (S (length vs)) us) at 1.
      rewrite firstn_app. rewrite (firstn_length_le us) by lia.
      replace (S (length vs) + k - S (length vs))%nat with k by lia.
      rewrite (firstn_all2 (n := S (length vs) + k)) by (rewrite firstn_length; lia).
      rewrite dval_app. fold W. f_equal. f_equal. f_equal. unfold lenz. rewrite firstn_length, skipn_length. lia. }
    assert (S2 : dval (firstn (length vs + k) us'') = (W mod dval vs) * 10000 ^ Z.of_nat k + dval (firstn k (skipn (length vs) us''))).
    { rewrite <- (firstn_skipn (length vs) us'') at 1.
      unfold lenz in Lu'. cbn [length] in Lu'.
      rewrite firstn_app. rewrite (firstn_length_le us'') by lia.
      replace (length vs + k - length vs)%nat with k by lia.
      rewrite (firstn_all2 (n := length vs + k)) by (rewrite firstn_length; lia).
      rewrite dval_app, Zv. f_equal. f_equal. f_equal. unfold lenz. rewrite firstn_length, skipn_length. lia. }
    change (skipn (length vs) us'' = skipn (S (length vs)) us) in Su'. rewrite S1, S2, Su'.
    set (T := dval (firstn k (skipn (S (length vs)) us))). set (P := 10000 ^ Z.of_nat k).
    assert (EX : W * P + T = (W mod dval vs * P + T) + (W / dval vs * P) * dval vs).
    { transitivity ((dval vs * (W / dval vs) + W mod dval vs) * P + T); [now rewrite <- DM|ring]. }
    rewrite EX, Z.div_add by lia. ring.
Qed.
