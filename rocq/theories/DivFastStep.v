(** * DivFastStep: one iteration of the fast division loop. *)
From Coq Require Import ZArith QArith Lia List Bool.
From Verif Require Import Base Var Flt FltFacts Transc Digits Arith DivFastEst DivFastInt.
Import ListNotations.
Open Scope Z_scope.

Local Notation B := 10000.

Lemma E3 : B ^ 3 = 1000000000000.
Proof. reflexivity. Qed.

Section Divisor.
Context (c : cfg) (d0 : Z) (dt : list Z) (Dd : Forall dig (d0 :: dt)) (N0 : d0 <> 0).
Let ds := d0 :: dt.
Let F := dal 4 ds.
Let finv := fdiv 1 (first4 ds).

Lemma F_bound : 1000000000000 <= F < 10000000000000000.
Proof.
  pose proof (dal_bound 4 ds Dd) as H. change (B ^ Z.of_nat 4) with 10000000000000000 in H. fold F in H.
  split; [|lia]. inversion Dd as [|? ? H0 Ht]; subst. unfold dig in H0.
  change F with (d0 * 1000000000000 + dal 3 dt).
  pose proof (dal_bound 3 dt Ht). nia.
Qed.

(** The four digits of the estimate against the whole number. *)
Lemma head_gap r0 t : cellb 214748 t ->
  let m := lenz t in
  Z.abs (dval (r0 :: t) * B ^ 3 - dal 4 (r0 :: t) * B ^ m) <= 214748 * B ^ m.
Proof.
  intros C m. destruct (le_lt_dec (length (r0 :: t)) 4) as [L|L].
  - rewrite (dal_pad 4 (r0 :: t) L). rewrite lenz_cons. fold m.
    assert (M : 0 <= m <= 3) by (unfold m, lenz; cbn in L; lia).
    assert (E : B ^ 3 = B ^ (Z.of_nat 4 - (1 + m)) * B ^ m).
    { rewrite <- pB_add by lia. f_equal. lia. }
    rewrite E. pose proof (pB_pos' m ltac:(lia)).
    replace (dval (r0 :: t) * (B ^ (Z.of_nat 4 - (1 + m)) * B ^ m) - dval (r0 :: t) * B ^ (Z.of_nat 4 - (1 + m)) * B ^ m) with 0 by ring.
    lia.
  - rewrite (dal_app 4 (r0 :: t)) by lia. rewrite lenz_cons. fold m. change (skipn 4 (r0 :: t)) with (skipn 3 t).
    assert (M : 3 < m) by (unfold m, lenz; cbn in L; lia).
    set (s := skipn 3 t).
    assert (Cs : cellb 214748 s).
    { unfold cellb, s in *. rewrite <- (firstn_skipn 3 t) in C. apply Forall_app in C. apply C. }
    pose proof (cellb_dval' 214748 s ltac:(lia) Cs) as Hs.
    assert (Ls : lenz s = m - 3). { unfold s, m, lenz. rewrite skipn_length. cbn in L. lia. }
    rewrite Ls in Hs.
    assert (E : B ^ m = B ^ (m - 3) * B ^ 3). { rewrite <- pB_add by lia. f_equal. lia. }
    replace (1 + m - Z.of_nat 4) with (m - 3) by lia. rewrite E.
    replace ((dal 4 (r0 :: t) * B ^ (m - 3) + dval s) * B ^ 3 - dal 4 (r0 :: t) * (B ^ (m - 3) * B ^ 3))
      with (dval s * B ^ 3) by ring.
    rewrite Z.abs_mul. change (Z.abs (B ^ 3)) with (B ^ 3). change (B ^ 3) with 1000000000000 in *. lia.
Qed.

Lemma head_small r0 t K : cellb 214748 t -> 0 <= K <= 20010 ->
  Z.abs (dval (r0 :: t)) * B ^ 3 <= K * (F * B ^ lenz t) -> Z.abs r0 <= 300000000.
Proof.
  intros C HK H. pose proof F_bound as HF. pose proof (cellb_dval' 214748 t ltac:(lia) C) as Ht.
  pose proof (pB_len t) as P. rewrite dval_cons in H. change (B ^ 3) with 1000000000000 in H.
  set (b := B ^ lenz t) in *. set (y := dval t) in *.
  assert (A0 : F * b <= 10000000000000000 * b) by (apply Z.mul_le_mono_nonneg_r; lia).
  assert (A1 : K * (F * b) <= 20010 * (F * b)) by (apply Z.mul_le_mono_nonneg_r; [apply Z.mul_nonneg_nonneg|]; lia).
  assert (A : Z.abs (r0 * b + y) <= 200100000 * b) by lia.
  assert (A2 : Z.abs (r0 * b) <= 200314748 * b) by lia.
  rewrite Z.abs_mul, (Z.abs_eq b) in A2 by lia. apply Z.mul_le_mono_pos_r in A2; lia.
Qed.

Lemma estimate_value r0 t K : cellb 214748 t -> 0 <= K <= 20010 ->
  let X := F * B ^ lenz t in let V := dval (r0 :: t) in
  Z.abs V * B ^ 3 <= K * X ->
  exists q, estimate c (r0 :: t) finv = Ret q /\
    - 6 * X <= 10000000 * (V * B ^ 3 - q * X) <= 10000006 * X /\ Z.abs q <= K + 1.
Proof.
  intros C HK X V HV. pose proof F_bound as HF. pose proof (head_gap r0 t C) as G. cbv zeta in G.
  pose proof (head_small r0 t K C HK HV) as R0. pose proof (pB_len t) as P.
  inversion Dd as [|? ? Hd0 Hdt]; subst.
  assert (Ct : Forall (fun x => Z.abs x <= 2147265252) t) by (revert C; apply Forall_impl; lia).
  fold V in G. set (b := B ^ lenz t) in *. set (p := dal 4 (r0 :: t)) in *.
  assert (HP : Z.abs p <= 31000 * F).
  { assert (A : Z.abs (p * b) <= (31000 * F) * b).
    { unfold X in HV. change (B ^ 3) with 1000000000000 in *.
      assert (A0 : Z.abs (p * b) <= Z.abs V * 1000000000000 + 214748 * b) by lia.
      assert (A1 : K * (F * b) <= 20010 * (F * b)) by (apply Z.mul_le_mono_nonneg_r; [apply Z.mul_nonneg_nonneg|]; lia).
      assert (A2 : 1000000000000 * b <= F * b) by (apply Z.mul_le_mono_nonneg_r; lia). lia. }
    rewrite Z.abs_mul, (Z.abs_eq b) in A by lia. apply Z.mul_le_mono_pos_r in A; lia. }
  destruct (estimate_spec c d0 dt r0 t Hd0 N0 Hdt R0 Ct HP) as (q & Eq & Q & _).
  change (dal 4 (d0 :: dt)) with F in Q. fold p in Q.
  exists q. split; [exact Eq|].
  assert (Q1 : - 220 * X <= 1000000000 * (p * b - q * X) <= 1000000220 * X).
  { replace (- 220 * X) with ((- 220 * F) * b) by (unfold X; ring).
    replace (1000000220 * X) with ((1000000220 * F) * b) by (unfold X; ring).
    replace (1000000000 * (p * b - q * X)) with ((1000000000 * (p - q * F)) * b) by (unfold X; ring).
    split; apply Z.mul_le_mono_nonneg_r; lia. }
  assert (XB : 1000000000000 * b <= X) by (unfold X; apply Z.mul_le_mono_nonneg_r; lia).
  assert (Q2 : - 6 * X <= 10000000 * (V * B ^ 3 - q * X) <= 10000006 * X) by lia.
  split; [exact Q2|]. change (B ^ 3) with 1000000000000 in *.
  assert (X0 : 0 < X) by lia. clear - Q2 HV X0 HK.
  assert (A1 : q * X < (K + 1) * X) by lia. assert (A2 : (- K - 2) * X < q * X) by lia.
  apply Z.mul_lt_mono_pos_r in A1, A2; lia.
Qed.

(** Invariant of the loop: [m] + 1 entries left. *)
Definition kfac (m : nat) : Z := match m with O => 20010 | S _ => 10003 end.

Record St (m : nat) (md : Z) (rem : list Z) : Prop := {
  s_len : length rem = S m;
  s_cells : cellb md (tl rem);
  s_md : 1 <= md <= 214748;
  s_val : Z.abs (dval rem) * B ^ 3 <= kfac m * (F * B ^ Z.of_nat m)
}.

(** Condition under which the debug build does not overflow. *)
Definition safe (rem : list Z) : Prop := (length ds <= 21)%nat /\ cellk (pred (length dt)) (tl rem).

Lemma F_dal m : exists e, F * B ^ Z.of_nat m = dal (S m) ds * B ^ 3 + e /\ Z.abs e <= B ^ Z.max 3 (Z.of_nat m).
Proof.
  destruct (le_lt_dec (S m) 4) as [L|L].
  - destruct (dal_split (S m) 4 ds L Dd) as (r & E & R & _). fold F in E.
    exists (r * B ^ Z.of_nat m). rewrite E.
    assert (P : B ^ (Z.of_nat 4 - Z.of_nat (S m)) * B ^ Z.of_nat m = B ^ 3).
    { rewrite <- pB_add by lia. f_equal. lia. }
    split; [rewrite <- P; ring|]. rewrite Z.max_l by lia. rewrite <- P.
    pose proof (pB_pos' (Z.of_nat m) ltac:(lia)). nia.
  - destruct (dal_split 4 (S m) ds ltac:(lia) Dd) as (r & E & R & _). fold F in E.
    exists (- r * B ^ 3). rewrite E.
    assert (P : B ^ (Z.of_nat (S m) - Z.of_nat 4) * B ^ 3 = B ^ Z.of_nat m).
    { rewrite <- pB_add by lia. f_equal. lia. }
    split; [rewrite <- P; ring|]. rewrite Z.max_r by lia. rewrite <- P.
    change (B ^ 3) with 1000000000000. nia.
Qed.

(** The remainder after subtracting [q] times the divisor. *)
Lemma next_value m V q : 0 <= Z.abs q <= 10004 ->
  let X := F * B ^ Z.of_nat (S m) in
  - 6 * X <= 10000000 * (V * B ^ 3 - q * X) <= 10000006 * X ->
  let V' := V - q * dal (S (S m)) ds in
  Z.abs V' * B ^ 3 <= kfac m * (F * B ^ Z.of_nat m) /\ Z.abs V' <= 10002 * B ^ Z.of_nat (S m).
Proof.
  intros Hq X HX V'. destruct (F_dal (S m)) as (e & E & He). fold X in E.
  pose proof F_bound as HF.
  assert (PX : B ^ Z.of_nat (S m) = B * B ^ Z.of_nat m).
  { replace (Z.of_nat (S m)) with (1 + Z.of_nat m) by lia. apply pB_succ. lia. }
  set (b := B ^ Z.of_nat m) in *. assert (Pb : 0 < b) by (apply pB_pos'; lia).
  assert (EV : V' * B ^ 3 = (V * B ^ 3 - q * X) + q * e).
  { unfold V'. rewrite E. ring. }
  assert (Hm : Z.abs (q * e) <= 10004 * B ^ Z.max 3 (Z.of_nat (S m)))
    by (rewrite Z.abs_mul; apply Z.mul_le_mono_nonneg; lia).
  assert (AV : Z.abs V' * B ^ 3 = Z.abs (V' * B ^ 3)) by (rewrite Z.abs_mul; reflexivity).
  assert (XE : X = F * (B * b)) by (unfold X; rewrite PX; reflexivity).
  rewrite E3 in *.
  destruct m as [|m'].
  - cbn [kfac]. change (B ^ Z.max 3 (Z.of_nat 1)) with 1000000000000 in Hm.
    assert (Eb : b = 1) by reflexivity. rewrite PX, Eb in *. clearbody X F V' b. clear - HX XE AV EV Hm HF Hq.
    lia.
  - cbn [kfac]. rewrite PX.
    assert (PM : B ^ Z.max 3 (Z.of_nat (S (S m'))) * 10000 <= 1000000000000 * b).
    { rewrite <- E3. unfold b. rewrite <- (Z.pow_1_r 10000) at 2.
      rewrite <- !pB_add by lia. apply Z.pow_le_mono_r; lia. }
    assert (T : 10000000 * Z.abs (V * 1000000000000 - q * X) <= 10000006 * X) by lia.
    assert (T2 : 10000 * Z.abs (q * e) <= 10004 * (1000000000000 * b)) by lia.
    assert (T3 : 1000000000000 * b <= F * b) by (apply Z.mul_le_mono_nonneg_r; lia).
    assert (T4 : X = 10000 * (F * b)) by (rewrite XE; ring).
    assert (T5 : F * b <= 10000000000000000 * b) by (apply Z.mul_le_mono_nonneg_r; lia).
    clearbody X V' b. clear - AV EV T T2 T3 T4 T5 Pb.
    split; lia.
Qed.

(** Folding the first entry into the second. *)
Lemma fold_step (m : nat) (q md : Z) (rem : list Z) (V : Z) : length rem = S (S m) -> 1 <= md <= 214748 -> cellb md (tl rem) ->
  dval rem = V -> Z.abs V * B ^ 3 <= kfac m * (F * B ^ Z.of_nat m) -> Z.abs V <= 10002 * B ^ Z.of_nat (S m) ->
  let k := match rem with
           | r0 :: r1 :: t => p <- i32 c (r0 * NBASE) ;; s <- i32 c (r1 + p) ;; Ret (q, md, s :: t)
           | _ => UB
           end in
  (exists rem', k = Ret (q, md, rem') /\ St m md rem' /\ dval rem' = V /\
                (cellk (length dt) (tl rem) -> cellk (pred (length dt)) (tl rem'))) \/
  (dbg c = true /\ k = Panic WArith /\ ~ ((length ds <= 21)%nat /\ cellk (length dt) (tl rem))).
Proof.
  intros L M C EV HV HV2 k. subst k.
  destruct rem as [|r0 [|r1 t]]; [cbn in L; lia|cbn in L; lia|].
  assert (Lt : length t = m) by (cbn in L; lia). cbn [tl] in *.
  inversion C as [|? ? C1 Ct]; subst.
  set (m := length t) in *. change (Z.of_nat m) with (lenz t) in *.
  assert (S2 : Z.of_nat (S m) = 1 + lenz t) by (unfold m, lenz; lia). rewrite S2 in HV2.
  assert (Ev : dval ((r1 + r0 * B) :: t) = dval (r0 :: r1 :: t)).
  { rewrite !dval_cons, lenz_cons, pB_succ by apply lenz_nonneg. ring. }
  assert (Hr : Z.abs (r1 + r0 * B) <= 300000000).
  { apply (head_small (r1 + r0 * B) t (kfac m)); [apply (cellb_mono md); [lia|exact Ct]|destruct m; cbn; lia|].
    rewrite Ev. exact HV. }
  destruct (fold_spec c r0 r1 (fun s => Ret (q, md, s :: t)) Hr) as [E|(Ed & N & E)].
  - left. exists ((r1 + r0 * B) :: t). split; [exact E|]. split.
    + constructor; cbn [tl length]; [reflexivity|exact Ct|lia|]. rewrite Ev.
      change (Z.of_nat m) with (lenz t). exact HV.
    + split; [exact Ev|]. cbn [tl]. cbn [cellk]. intros [_ H]. exact H.
  - right. split; [exact Ed|]. split; [exact E|]. intros [H1 H2].
    pose proof (cellb_dval' (1 + 10004 * Z.of_nat (length dt)) _ ltac:(lia) (cellk_cellb _ _ H2)) as Hb.
    assert (Hl : Z.of_nat (length dt) <= 20) by (unfold ds in H1; cbn in H1; lia).
    rewrite (dval_cons r0), lenz_cons in HV2. rewrite lenz_cons in Hb.
    assert (P : 0 < B ^ (1 + lenz t)) by (apply pB_pos'; unfold lenz; lia).
    set (b := B ^ (1 + lenz t)) in *. set (y := dval (r1 :: t)) in *.
    assert (A0 : (1 + 10004 * Z.of_nat (length dt)) * b <= 200081 * b) by (apply Z.mul_le_mono_nonneg_r; lia).
    assert (A : Z.abs (r0 * b) <= 214748 * b) by (clear - A0 Hb HV2 P; lia).
    rewrite Z.abs_mul, (Z.abs_eq b) in A by lia. apply Z.mul_le_mono_pos_r in A; lia.
Qed.

Lemma step_spec m md rem : St (S m) md rem ->
  (exists q md' rem', df_step c ds finv md rem = Ret (q, md', rem') /\ St m md' rem' /\
     dval rem = q * dal (S (S m)) ds + dval rem' /\ Z.abs q <= 10004 /\ (safe rem -> safe rem')) \/
  (dbg c = true /\ df_step c ds finv md rem = Panic WArith /\ ~ safe rem).
Proof.
  intros [L C M V]. destruct rem as [|r0 t]; [cbn in L; lia|]. cbn [tl] in C.
  assert (Lt : length t = S m) by (cbn in L; lia).
  assert (LZ : lenz t = Z.of_nat (S m)) by (unfold lenz; lia).
  cbn [kfac] in V. rewrite <- LZ in V.
  assert (C' : cellb 214748 t) by (apply (cellb_mono md); [lia|exact C]).
  destruct (estimate_value r0 t 10003 C' ltac:(lia) V) as (q & Eq & Q & Qa).
  unfold df_step. rewrite Eq. cbn [bind].
  (* what remains to do once the (possibly normalized) array and digit are known *)
  assert (Core : forall q1 md1 r1 t1, length t1 = S m -> 1 <= md1 -> md1 + Z.abs q1 <= 214748 -> cellb md1 t1 ->
     dval (r1 :: t1) = dval (r0 :: t) -> Z.abs q1 <= 10004 ->
     - 6 * (F * B ^ lenz t) <= 10000000 * (dval (r0 :: t) * B ^ 3 - q1 * (F * B ^ lenz t)) <= 10000006 * (F * B ^ lenz t) ->
     (safe (r0 :: t) -> cellk (pred (length dt)) t1) ->
     let o := '(q, max_div, rem) <- (if q1 =? 0 then Ret (q1, md1 + Z.abs q1, r1 :: t1)
               else rem <- sub_mul c q1 (r1 :: t1) ds ;; Ret (q1, md1 + Z.abs q1, rem)) ;;
              match rem with
              | r0 :: r1 :: t => p <- i32 c (r0 * NBASE) ;; s <- i32 c (r1 + p) ;; Ret (q, max_div, s :: t)
              | _ => UB
              end in
     (exists q md' rem', o = Ret (q, md', rem') /\ St m md' rem' /\
        dval (r0 :: t) = q * dal (S (S m)) ds + dval rem' /\ Z.abs q <= 10004 /\ (safe (r0 :: t) -> safe rem')) \/
     (dbg c = true /\ o = Panic WArith /\ ~ safe (r0 :: t))).
  { intros q1 md1 r1 t1 L1 M1 M2 C1 V1 Q1 QX SF o. rewrite LZ in QX.
    destruct (next_value m (dval (r0 :: t)) q1 ltac:(lia) QX) as [NV1 NV2].
    assert (T1 : cellb 214748 t1) by (apply (cellb_mono md1); [lia|exact C1]).
    assert (Hsub : exists s0 rem', (if q1 =? 0 then Ret (q1, md1 + Z.abs q1, r1 :: t1)
               else rem <- sub_mul c q1 (r1 :: t1) ds ;; Ret (q1, md1 + Z.abs q1, rem)) = Ret (q1, md1 + Z.abs q1, s0 :: rem')
             /\ length rem' = S m /\ dval (s0 :: rem') = dval (r0 :: t) - q1 * dal (S (S m)) ds
             /\ cellb (md1 + Z.abs q1) rem' /\ (safe (r0 :: t) -> cellk (length dt) rem')).
    { destruct (Z.eqb_spec q1 0) as [->|Nq].
      - exists r1, t1. split; [reflexivity|]. split; [exact L1|]. split; [lia|].
        split; [apply (cellb_mono md1); [lia|exact C1]|]. intro S. apply (cellk_mono (pred (length dt))); [lia|].
        apply SF. exact S.
      - assert (R1 : Z.abs r1 <= 300000000).
        { apply (head_small r1 t1 10003 T1 ltac:(lia)). rewrite V1.
          replace (lenz t1) with (lenz t) by (unfold lenz; lia). exact V. }
        destruct (sub_mul_head c q1 md1 r1 t1 d0 dt Dd ltac:(lia) ltac:(lia) M2 C1 R1) as (s0 & rem' & E & L' & V' & C'' & CK).
        exists s0, rem'. unfold ds. rewrite E. cbn [bind]. split; [reflexivity|]. split; [lia|].
        split; [rewrite V', V1, L1; reflexivity|]. split; [exact C''|]. intro S. apply CK; [exact Q1|]. apply SF. exact S. }
    destruct Hsub as (s0 & rem' & E & L' & V' & C'' & CK). subst o. rewrite E. cbn [bind].
    pose proof (fold_step m q1 (md1 + Z.abs q1) (s0 :: rem') (dval (r0 :: t) - q1 * dal (S (S m)) ds)
                  ltac:(cbn; lia) ltac:(lia) C'' V' NV1 NV2) as FS. cbv zeta in FS. cbn [tl] in FS.
    destruct FS as [(rem2 & E2 & S2 & V2 & K2)|(Ed & E2 & NS)].
    - left. exists q1, (md1 + Z.abs q1), rem2. split; [exact E2|]. split; [exact S2|]. split; [lia|]. split; [exact Q1|].
      intro S. split; [apply S|]. apply K2. apply CK. exact S.
    - right. split; [exact Ed|]. split; [exact E2|]. intro S. apply NS. split; [apply S|]. apply CK. exact S. }
  destruct (Z.eqb_spec q 0) as [Zq|Nq].
  - subst q. pose proof (Core 0 md r0 t Lt ltac:(lia) ltac:(lia) C eq_refl ltac:(lia) Q (fun S => proj2 S)) as H.
    change (0 =? 0) with true in H. cbv zeta in H. rewrite Z.abs_0, Z.add_0_r in H. exact H.
  - rewrite i32_ok by lia. cbn [bind]. rewrite i32_ok by lia. cbn [bind].
    change MAX_DIV with 214748.
    destruct (Z.ltb_spec 214748 (md + Z.abs q)) as [Hbig|Hsm].
    + destruct (carry_down_spec c t C') as (k & t' & Ec & Dt' & Lt' & Vt' & Hk). rewrite Ec. cbn [bind].
      pose proof (head_small r0 t 10003 C' ltac:(lia) V) as R0.
      rewrite i32_ok by lia. cbn [bind].
      assert (LZ' : lenz t' = lenz t) by (unfold lenz; lia).
      assert (VV : dval (r0 + k :: t') = dval (r0 :: t)).
      { rewrite !dval_cons, LZ', Vt'. ring. }
      assert (V2 : Z.abs (dval (r0 + k :: t')) * B ^ 3 <= 10003 * (F * B ^ lenz t')) by (rewrite VV, LZ'; exact V).
      assert (C2 : cellb 214748 t') by (apply (cellb_mono 1); [lia|]; apply dig_cellb; exact Dt').
      destruct (estimate_value (r0 + k) t' 10003 C2 ltac:(lia) V2) as (q2 & Eq2 & Q2 & Qa2).
      rewrite Eq2. cbn [bind]. rewrite i32_ok by lia. cbn [bind]. rewrite i32_ok by lia. cbn [bind].
      rewrite VV, LZ' in Q2.
      exact (Core q2 1 (r0 + k) t' ltac:(lia) ltac:(lia) ltac:(lia) (dig_cellb _ Dt') VV ltac:(lia) Q2
               (fun _ => dig_cellk _ _ Dt')).
    + cbn [bind]. exact (Core q md r0 t Lt ltac:(lia) ltac:(lia) C eq_refl ltac:(lia) Q (fun S => proj2 S)).
Qed.
End Divisor.
