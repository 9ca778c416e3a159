(** * MachAdd: addition, subtraction and comparison, machine level (Mach.v) against Var.v. *)
From Coq Require Import ZArith List Bool Lia.
From Verif Require Import Base Var Binary Data Digits Arith DataSim DataApi Mach MachSim.
Import ListNotations.
Open Scope Z_scope.

Ltac ari := repeat (rewrite i32_ok by lia; cbn [bind]).

Lemma sim_weaken B B' x y : B <= B' -> sim (mrep B) x y -> sim (mrep B') x y.
Proof. intro L. apply sim_mono. intros p v. now apply mrep_mono. Qed.

Lemma snoc_of {A} k (l : list A) : length l = S k -> exists l' x, l = l' ++ [x] /\ length l' = k.
Proof.
  intro H. destruct (exists_last (l := l)) as (l' & x & E); [destruct l; [discriminate|congruence]|].
  exists l', x. split; [exact E|]. rewrite E, app_length in H. cbn in H. lia.
Qed.

Lemma m_add_step_eq c ds1 ds2 carry i1 i2 pre x acc : -32768 <= carry <= 32767 ->
  - big <= i1 <= big -> - big <= i2 <= big ->
  m_add_step c (lenz ds1) (lenz ds2) ds1 ds2 (lenz pre) (carry, i1, i2, pre ++ x :: acc) =
  (d1 <- digit_at ds1 (i1 - 1) ;;
   carry <- i16 c (carry + d1) ;;
   d2 <- digit_at ds2 (i2 - 1) ;;
   carry <- i16 c (carry + d2) ;;
   Ret ((if NBASE <=? carry then 1 else 0), i1 - 1, i2 - 1,
        pre ++ (if NBASE <=? carry then carry - NBASE else carry) :: acc)).
Proof.
  unfold big. intros HC H1 H2. unfold m_add_step. ari.
  unfold digit_at.
  assert (S1 : (if (0 <=? i1 - 1) && (i1 - 1 <? lenz ds1)
                then x <- get_unchecked ds1 (i1 - 1) ;; i16 c (carry + x) else Ret carry) =
               (d1 <- (if (0 <=? i1 - 1) && (i1 - 1 <? lenz ds1) then get_unchecked ds1 (i1 - 1) else Ret 0) ;; i16 c (carry + d1))).
  { destruct (_ && _); [reflexivity|]. cbn [bind]. rewrite i16_ok by lia. now rewrite Z.add_0_r. }
  rewrite S1, bind_assoc. clear S1. apply bind_ext. intros d1 _. apply bind_ext. intros s Es. apply i16_range in Es.
  assert (S2 : (if (0 <=? i2 - 1) && (i2 - 1 <? lenz ds2)
                then x <- get_unchecked ds2 (i2 - 1) ;; i16 c (s + x) else Ret s) =
               (d1 <- (if (0 <=? i2 - 1) && (i2 - 1 <? lenz ds2) then get_unchecked ds2 (i2 - 1) else Ret 0) ;; i16 c (s + d1))).
  { destruct (_ && _); [reflexivity|]. cbn [bind]. rewrite i16_ok by lia. now rewrite Z.add_0_r. }
  rewrite S2, bind_assoc. apply bind_ext. intros d2 _. apply bind_ext. intros t Et. apply i16_range in Et.
  change NBASE with 10000. destruct (Z.leb_spec 10000 t).
  - rewrite i16_ok by lia. cbn [bind]. now rewrite set_unchecked_app.
  - now rewrite set_unchecked_app.
Qed.

Lemma add_for c ds1 ds2 : forall k carry i1 i2 pre acc, length pre = k -> -32768 <= carry <= 32767 ->
  - big <= i1 - Z.of_nat k -> i1 <= big -> - big <= i2 - Z.of_nat k -> i2 <= big ->
  ('(carry, _, _, res) <- for_rev k (m_add_step c (lenz ds1) (lenz ds2) ds1 ds2) (carry, i1, i2, pre ++ acc) ;; Ret (carry, res))
  = add_loop c k ds1 ds2 i1 i2 carry acc.
Proof.
  induction k as [|k IH]; intros carry i1 i2 pre acc L HC A1 A2 A3 A4.
  { destruct pre; [reflexivity|discriminate]. }
  destruct (snoc_of k pre L) as (pre' & x & -> & L'). cbn [for_rev add_loop].
  replace ((pre' ++ [x]) ++ acc) with (pre' ++ x :: acc) by now rewrite <- app_assoc.
  replace (Z.of_nat k) with (lenz pre') at 1 by (unfold lenz; lia).
  rewrite m_add_step_eq by lia. rewrite !bind_assoc. cbn zeta.
  apply bind_ext. intros d1 _. rewrite !bind_assoc. apply bind_ext. intros s _. rewrite !bind_assoc. apply bind_ext. intros d2 _.
  rewrite !bind_assoc. apply bind_ext. intros t Et. cbn [bind]. apply i16_range in Et.
  change NBASE with 10000. destruct (Z.leb_spec 10000 t); apply IH; lia.
Qed.

Lemma m_sub_step_eq c ds1 ds2 carry i1 i2 pre x acc : -32768 <= carry <= 32767 ->
  - big <= i1 <= big -> - big <= i2 <= big ->
  m_sub_step c (lenz ds1) (lenz ds2) ds1 ds2 (lenz pre) (carry, i1, i2, pre ++ x :: acc) =
  (d1 <- digit_at ds1 (i1 - 1) ;;
   carry <- i16 c (carry + d1) ;;
   d2 <- digit_at ds2 (i2 - 1) ;;
   carry <- i16 c (carry - d2) ;;
   if carry <? 0 then d <- i16 c (carry + NBASE) ;; Ret (-1, i1 - 1, i2 - 1, pre ++ d :: acc)
   else Ret (0, i1 - 1, i2 - 1, pre ++ carry :: acc)).
Proof.
  unfold big. intros HC H1 H2. unfold m_sub_step. ari.
  unfold digit_at.
  assert (S1 : (if (0 <=? i1 - 1) && (i1 - 1 <? lenz ds1)
                then x <- get_unchecked ds1 (i1 - 1) ;; i16 c (carry + x) else Ret carry) =
               (d1 <- (if (0 <=? i1 - 1) && (i1 - 1 <? lenz ds1) then get_unchecked ds1 (i1 - 1) else Ret 0) ;; i16 c (carry + d1))).
  { destruct (_ && _); [reflexivity|]. cbn [bind]. rewrite i16_ok by lia. now rewrite Z.add_0_r. }
  rewrite S1, bind_assoc. clear S1. apply bind_ext. intros d1 _. apply bind_ext. intros s Es. apply i16_range in Es.
  assert (S2 : (if (0 <=? i2 - 1) && (i2 - 1 <? lenz ds2)
                then x <- get_unchecked ds2 (i2 - 1) ;; i16 c (s - x) else Ret s) =
               (d1 <- (if (0 <=? i2 - 1) && (i2 - 1 <? lenz ds2) then get_unchecked ds2 (i2 - 1) else Ret 0) ;; i16 c (s - d1))).
  { destruct (_ && _); [reflexivity|]. cbn [bind]. rewrite i16_ok by lia. now rewrite Z.sub_0_r. }
  rewrite S2, bind_assoc. apply bind_ext. intros d2 _. apply bind_ext. intros t Et. apply i16_range in Et.
  destruct (t <? 0).
  - apply bind_ext. intros d _. now rewrite set_unchecked_app.
  - now rewrite set_unchecked_app.
Qed.

Lemma sub_for c ds1 ds2 : forall k carry i1 i2 pre acc, length pre = k -> -32768 <= carry <= 32767 ->
  - big <= i1 - Z.of_nat k -> i1 <= big -> - big <= i2 - Z.of_nat k -> i2 <= big ->
  ('(carry, _, _, res) <- for_rev k (m_sub_step c (lenz ds1) (lenz ds2) ds1 ds2) (carry, i1, i2, pre ++ acc) ;; Ret (carry, res))
  = sub_loop c k ds1 ds2 i1 i2 carry acc.
Proof.
  induction k as [|k IH]; intros carry i1 i2 pre acc L HC A1 A2 A3 A4.
  { destruct pre; [reflexivity|discriminate]. }
  destruct (snoc_of k pre L) as (pre' & x & -> & L'). cbn [for_rev sub_loop].
  replace ((pre' ++ [x]) ++ acc) with (pre' ++ x :: acc) by now rewrite <- app_assoc.
  replace (Z.of_nat k) with (lenz pre') at 1 by (unfold lenz; lia).
  rewrite m_sub_step_eq by lia. rewrite !bind_assoc. cbn zeta.
  apply bind_ext. intros d1 _. rewrite !bind_assoc. apply bind_ext. intros s _. rewrite !bind_assoc. apply bind_ext. intros d2 _.
  rewrite !bind_assoc. apply bind_ext. intros t Et. cbn [bind]. apply i16_range in Et.
  destruct (t <? 0).
  - rewrite !bind_assoc. apply bind_ext. intros d _. cbn [bind]. apply IH; lia.
  - cbn [bind]. apply IH; lia.
Qed.

Lemma add_loop_len c ds1 ds2 : forall k i1 i2 carry acc cr res,
  add_loop c k ds1 ds2 i1 i2 carry acc = Ret (cr, res) -> lenz res = Z.of_nat k + lenz acc.
Proof.
  induction k as [|k IH]; intros i1 i2 carry acc cr res E; cbn [add_loop] in E.
  { injection E as _ <-. cbn; lia. }
  apply bind_ret in E. destruct E as (d1 & _ & E). apply bind_ret in E. destruct E as (s & _ & E).
  apply bind_ret in E. destruct E as (d2 & _ & E). apply bind_ret in E. destruct E as (t & _ & E).
  destruct (_ <=? _); apply IH in E; rewrite lenz_cons in E; lia.
Qed.
Lemma sub_loop_len c ds1 ds2 : forall k i1 i2 carry acc cr res,
  sub_loop c k ds1 ds2 i1 i2 carry acc = Ret (cr, res) -> lenz res = Z.of_nat k + lenz acc.
Proof.
  induction k as [|k IH]; intros i1 i2 carry acc cr res E; cbn [sub_loop] in E.
  { injection E as _ <-. cbn; lia. }
  apply bind_ret in E. destruct E as (d1 & _ & E). apply bind_ret in E. destruct E as (s & _ & E).
  apply bind_ret in E. destruct E as (d2 & _ & E). apply bind_ret in E. destruct E as (t & _ & E).
  destruct (_ <? _); [apply bind_ret in E; destruct E as (d & _ & E)|]; apply IH in E; rewrite lenz_cons in E; lia.
Qed.

Lemma m_new_ok c a n : 0 <= n <= 4000000000 -> exists d l,
  m_new c a n = Ret d /\ off d = 5 /\ digits_at d l /\ lenz l = n /\ lenz (words d) = n + 5 /\ m_slice c d n = Ret l.
Proof.
  intro H. destruct (with_ndigits_ok c a n H) as (d & l & E & O & D & L & W). exists d, l. unfold m_new.
  rewrite dassert_ok by (apply Z.leb_le; lia). cbn [bind]. repeat split; auto.
  rewrite <- L. apply m_slice_ok; [exact D|lia].
Qed.

(** a variable with freshly written digits *)
Lemma fresh_mrep B d l ds n w s sg : off d = 5 -> digits_at d l -> lenz l = n -> lenz ds = n -> lenz (words d) = n + 5 ->
  n + 5 <= B -> - B <= w <= B -> - B <= s <= B ->
  mrep B (PVar n w s sg (Owned (write_back d ds))) (Var w s sg ds).
Proof.
  intros O D L L' W H1 H2 H3. destruct (write_back_at d l ds D) as (D' & O' & W'); [lia|].
  split; constructor; cbn [p_nd p_weight p_dscale p_sign p_cow weight dscale sign]; auto; try lia.
  - split; [lia|exact D'].
  - pose proof (lenz_nonneg ds). lia.
Qed.

Lemma add_abs_m c a B p q v w : 0 <= B <= 3000000 -> mrep B p v -> mrep B q w ->
  sim (mrep (10 * B + 100)) (m_add_abs c a p q) (add_abs c v w).
Proof.
  intros LB M1 M2. pose proof M1 as [R1 [A1 A2 A3 A4]]. pose proof M2 as [R2 [B1 B2 B3 B4]].
  unfold m_add_abs, add_abs, is_nan, m_nan.
  rewrite (m_digits_ok c B p v) by (try assumption; unfold big; lia).
  rewrite (m_digits_ok c B q w) by (try assumption; unfold big; lia).
  rewrite (rp_sign p v R1), (rp_sign q w R2). apply sim_same. intros _ _. apply sim_same. intros _ _. cbn [bind]. cbn zeta.
  rewrite (rp_weight p v R1), (rp_weight q w R2), (rp_dscale p v R1), (rp_dscale q w R2), (rp_nd p v R1), (rp_nd q w R2) in *.
  set (n1 := ndigits v) in *. set (n2 := ndigits w) in *. set (w1 := weight v) in *. set (w2 := weight w) in *.
  ari.
  set (rs := Z.max (n1 - w1 - 1) (n2 - w2 - 1)). set (rw := Z.max w1 w2 + 1).
  assert (RS : - (B + 1) <= rs <= 2 * B) by (unfold rs; lia). assert (RW : - B <= rw <= B + 1) by (unfold rw; lia).
  ari.
  set (N := if 0 <? rs + rw + 1 then rs + rw + 1 else 1).
  assert (NB : 1 <= N <= 3 * B + 2) by (unfold N; destruct (Z.ltb_spec 0 (rs + rw + 1)); lia).
  destruct (m_new_ok c a N) as (d & l & E & O & D & L & W & S); [lia|]. rewrite E. cbn [bind]. rewrite S. cbn [bind].
  ari.
  pose proof (add_for c (digits v) (digits w) (Z.to_nat N) 0 (rs + w1 + 1) (rs + w2 + 1) l []) as EF.
  rewrite app_nil_r in EF. unfold big in EF. specialize (EF ltac:(unfold lenz in L; lia) ltac:(lia) ltac:(lia) ltac:(lia) ltac:(lia) ltac:(lia)).
  fold n1 n2 in EF. unfold ndigits in n1, n2. fold n1 n2 in EF.
  destruct (for_rev (Z.to_nat N) _ _) as [[[[cr j1] j2] res]| | |]; cbn [bind] in EF; rewrite <- EF; try (cbn; auto; fail).
  symmetry in EF. apply add_loop_len in EF. cbn [bind]. apply sim_same. intros _ _.
  apply (sim_weaken (2 * (3 * B + 8) + 5)); [lia|].
  apply strip_m; [lia|]. apply (fresh_mrep _ d l); auto; try lia.
  replace (lenz (@nil Z)) with 0 in EF by reflexivity. lia.
Qed.

Lemma sub_abs_m c a B p q v w : 0 <= B <= 3000000 -> mrep B p v -> mrep B q w ->
  sim (mrep (10 * B + 100)) (m_sub_abs c a p q) (sub_abs c v w).
Proof.
  intros LB M1 M2. pose proof M1 as [R1 [A1 A2 A3 A4]]. pose proof M2 as [R2 [B1 B2 B3 B4]].
  unfold m_sub_abs, sub_abs, is_nan, m_nan.
  rewrite (m_digits_ok c B p v) by (try assumption; unfold big; lia).
  rewrite (m_digits_ok c B q w) by (try assumption; unfold big; lia).
  rewrite (rp_sign p v R1), (rp_sign q w R2). apply sim_same. intros _ _. apply sim_same. intros _ _. cbn [bind]. cbn zeta.
  rewrite (rp_weight p v R1), (rp_weight q w R2), (rp_dscale p v R1), (rp_dscale q w R2), (rp_nd p v R1), (rp_nd q w R2) in *.
  set (n1 := ndigits v) in *. set (n2 := ndigits w) in *. set (w1 := weight v) in *. set (w2 := weight w) in *.
  ari.
  set (rs := Z.max (n1 - w1 - 1) (n2 - w2 - 1)).
  assert (RS : - (B + 1) <= rs <= 2 * B) by (unfold rs; lia).
  ari.
  set (N := if rs + w1 + 1 <=? 0 then 1 else rs + w1 + 1).
  assert (NB : 1 <= N <= 3 * B + 2) by (unfold N; destruct (Z.leb_spec (rs + w1 + 1) 0); lia).
  destruct (m_new_ok c a N) as (d & l & E & O & D & L & W & S); [lia|]. rewrite E. cbn [bind]. rewrite S. cbn [bind].
  ari.
  pose proof (sub_for c (digits v) (digits w) (Z.to_nat N) 0 (rs + w1 + 1) (rs + w2 + 1) l []) as EF.
  rewrite app_nil_r in EF. unfold big in EF. specialize (EF ltac:(unfold lenz in L; lia) ltac:(lia) ltac:(lia) ltac:(lia) ltac:(lia) ltac:(lia)).
  fold n1 n2 in EF. unfold ndigits in n1, n2. fold n1 n2 in EF.
  destruct (for_rev (Z.to_nat N) _ _) as [[[[cr j1] j2] res]| | |]; cbn [bind] in EF; rewrite <- EF; try (cbn; auto; fail).
  symmetry in EF. apply sub_loop_len in EF. cbn [bind]. apply sim_same. intros _ _.
  apply (sim_weaken (2 * (3 * B + 8) + 5)); [lia|].
  apply strip_m; [lia|]. apply (fresh_mrep _ d l); auto; try lia.
  replace (lenz (@nil Z)) with 0 in EF by reflexivity. lia.
Qed.

(** ** comparison *)
Lemma get_at {A} (pre ds : list A) x : get_unchecked (pre ++ x :: ds) (lenz pre) = Ret x.
Proof. now apply get_app. Qed.

Lemma cmp_skip_m c : forall ds pre w w' k, (length ds < k)%nat -> lenz (pre ++ ds) <= big -> - big <= w - lenz ds -> w <= big ->
  match cmp_skip ds w w' with
  | None => exists i x, m_cmp_skip c k (pre ++ ds) (lenz (pre ++ ds)) (lenz pre) w w' = Ret (true, i, x)
  | Some (r, w1) => exists pre', pre ++ ds = pre' ++ r /\
      m_cmp_skip c k (pre ++ ds) (lenz (pre ++ ds)) (lenz pre) w w' = Ret (false, lenz pre', w1)
  end.
Proof.
  unfold big. induction ds as [|d t IH]; intros pre w w' k K L1 L2 L3; (destruct k as [|k]; [cbn in K; lia|]); cbn [m_cmp_skip cmp_skip].
  - rewrite app_nil_r, Z.ltb_irrefl, andb_false_r. exists pre. now rewrite app_nil_r.
  - pose proof (lenz_nonneg pre). pose proof (lenz_nonneg t). rewrite lenz_app, lenz_cons in *.
    replace (lenz pre <? lenz pre + (1 + lenz t)) with true by (symmetry; apply Z.ltb_lt; lia). rewrite andb_true_r.
    destruct (Z.ltb_spec w' w); [|now exists pre]. rewrite get_at. cbn [bind].
    destruct (d =? 0); cbn [negb]; [|now eexists; eexists]. rewrite i32_ok by lia. cbn [bind]. rewrite i32_ok by lia. cbn [bind].
    specialize (IH (pre ++ [d]) (w - 1) w' k). rewrite <- app_assoc in IH. cbn [app] in IH.
    rewrite !lenz_app, !lenz_cons in IH. change (lenz (@nil Z)) with 0 in IH.
    replace (lenz pre + (1 + 0)) with (lenz pre + 1) in IH by lia.
    apply IH; cbn in K; lia.
Qed.

Lemma cmp_both_m c : forall ds1 ds2 pre1 pre2 k, (length ds1 < k)%nat -> lenz (pre1 ++ ds1) <= big -> lenz (pre2 ++ ds2) <= big ->
  sim (fun x y => match x, y with
                  | inl a, inl b => a = b
                  | inr (i1, i2), inr (r1, r2) => exists q1 q2, pre1 ++ ds1 = q1 ++ r1 /\ pre2 ++ ds2 = q2 ++ r2 /\ i1 = lenz q1 /\ i2 = lenz q2
                  | _, _ => False
                  end)
    (m_cmp_both c k (pre1 ++ ds1) (pre2 ++ ds2) (lenz (pre1 ++ ds1)) (lenz (pre2 ++ ds2)) (lenz pre1) (lenz pre2))
    (cmp_both c ds1 ds2).
Proof.
  unfold big. induction ds1 as [|d1 t1 IH]; intros ds2 pre1 pre2 k K L1 L2; (destruct k as [|k]; [cbn in K; lia|]); cbn [m_cmp_both cmp_both].
  - rewrite app_nil_r, Z.ltb_irrefl. cbn [andb sim]. exists pre1, pre2. now rewrite app_nil_r.
  - destruct ds2 as [|d2 t2].
    + rewrite app_nil_r, Z.ltb_irrefl, andb_false_r. cbn [sim]. exists pre1, pre2. now rewrite app_nil_r.
    + pose proof (lenz_nonneg pre1). pose proof (lenz_nonneg pre2). pose proof (lenz_nonneg t1). pose proof (lenz_nonneg t2).
      rewrite lenz_app, lenz_cons in L1. rewrite lenz_app, lenz_cons in L2.
      replace (lenz pre1 <? lenz (pre1 ++ d1 :: t1)) with true by (symmetry; apply Z.ltb_lt; rewrite lenz_app, lenz_cons; lia).
      replace (lenz pre2 <? lenz (pre2 ++ d2 :: t2)) with true by (symmetry; apply Z.ltb_lt; rewrite lenz_app, lenz_cons; lia).
      cbn [andb]. rewrite !get_at. cbn [bind]. apply sim_same. intros s _. destruct (s =? 0); cbn [negb]; [|reflexivity].
      rewrite i32_ok by lia. cbn [bind]. rewrite i32_ok by lia. cbn [bind].
      specialize (IH t2 (pre1 ++ [d1]) (pre2 ++ [d2]) k). rewrite <- !app_assoc in IH. cbn [app] in IH.
      rewrite (lenz_app pre1 [d1]), (lenz_app pre2 [d2]) in IH. change (lenz [d1]) with 1 in IH. change (lenz [d2]) with 1 in IH.
      apply IH; [cbn in K; lia| |]; rewrite lenz_app, lenz_cons; lia.
Qed.

Lemma cmp_rest_m c : forall ds pre k, (length ds < k)%nat -> lenz (pre ++ ds) <= big ->
  m_cmp_rest c k (pre ++ ds) (lenz (pre ++ ds)) (lenz pre) = Ret (any_nonzero ds).
Proof.
  unfold big. induction ds as [|d t IH]; intros pre k K L; (destruct k as [|k]; [cbn in K; lia|]); cbn [m_cmp_rest].
  - now rewrite app_nil_r, Z.ltb_irrefl.
  - pose proof (lenz_nonneg pre). pose proof (lenz_nonneg t). rewrite lenz_app, lenz_cons in *.
    replace (lenz pre <? lenz pre + (1 + lenz t)) with true by (symmetry; apply Z.ltb_lt; lia).
    rewrite get_at. cbn [bind]. unfold any_nonzero. cbn [existsb].
    destruct (d =? 0); cbn [negb orb]; [|reflexivity]. rewrite i32_ok by lia. cbn [bind].
    specialize (IH (pre ++ [d]) k). rewrite <- app_assoc in IH. cbn [app] in IH.
    rewrite !lenz_app, !lenz_cons in IH. change (lenz (@nil Z)) with 0 in IH.
    replace (lenz pre + (1 + 0)) with (lenz pre + 1) in IH by lia.
    apply IH; [cbn in K|]; lia.
Qed.

Lemma cmp_skip_len : forall ds w w' r w1, cmp_skip ds w w' = Some (r, w1) -> lenz r <= lenz ds /\ w - lenz ds <= w1 <= w.
Proof.
  induction ds as [|d t IH]; intros w w' r w1 E; cbn [cmp_skip] in E.
  - injection E as <- <-. change (lenz (@nil Z)) with 0. lia.
  - rewrite lenz_cons. pose proof (lenz_nonneg t). destruct (w' <? w).
    + destruct (d =? 0); [|discriminate]. apply IH in E. lia.
    + injection E as <- <-. rewrite lenz_cons. lia.
Qed.

Lemma cmp_rest_sim c k1 k2 pre1 pre2 ds1 ds2 :
  (length ds1 < k1)%nat -> (length ds2 < k2)%nat -> lenz (pre1 ++ ds1) <= big -> lenz (pre2 ++ ds2) <= big ->
  (more <- m_cmp_rest c k1 (pre1 ++ ds1) (lenz (pre1 ++ ds1)) (lenz pre1) ;;
   if (more : bool) then Ret 1
   else
     more <- m_cmp_rest c k2 (pre2 ++ ds2) (lenz (pre2 ++ ds2)) (lenz pre2) ;;
     if (more : bool) then Ret (-1) else Ret 0) = Ret (cmp_rest ds1 ds2).
Proof.
  intros. rewrite cmp_rest_m by assumption. cbn [bind]. unfold cmp_rest.
  destruct (any_nonzero ds1); [reflexivity|]. rewrite cmp_rest_m by assumption. cbn [bind].
  destruct (any_nonzero ds2); reflexivity.
Qed.

Lemma cmp_abs_m c B p q v w : 0 <= B <= 30000000 -> mrep B p v -> mrep B q w -> m_cmp_abs c p q = cmp_abs c v w.
Proof.
  intros LB M1 M2. pose proof M1 as [R1 [A1 A2 A3 A4]]. pose proof M2 as [R2 [B1 B2 B3 B4]].
  unfold m_cmp_abs, cmp_abs, is_nan, m_nan.
  rewrite (m_digits_ok c B p v) by (try assumption; unfold big; lia).
  rewrite (m_digits_ok c B q w) by (try assumption; unfold big; lia).
  rewrite (rp_sign p v R1), (rp_sign q w R2). apply bind_ext. intros _ _. apply bind_ext. intros _ _. cbn [bind]. cbn zeta.
  rewrite (rp_weight p v R1), (rp_weight q w R2), (rp_nd p v R1), (rp_nd q w R2) in *. unfold ndigits in *.
  set (ds1 := digits v) in *. set (ds2 := digits w) in *. rewrite !to_nat_lenz.
  pose proof (cmp_skip_m c ds1 [] (weight v) (weight w) (length ds1 + 1)) as S1. unfold big in S1. cbn [app] in S1.
  change (lenz (@nil Z)) with 0 in S1. specialize (S1 ltac:(lia) ltac:(lia) ltac:(lia) ltac:(lia)).
  destruct (cmp_skip ds1 (weight v) (weight w)) as [[r1 w1]|] eqn:E1.
  2: { destruct S1 as (i & x & ->). reflexivity. }
  destruct S1 as (q1 & Q1 & ->). cbn [bind]. apply cmp_skip_len in E1.
  pose proof (cmp_skip_m c ds2 [] (weight w) w1 (length ds2 + 1)) as S2. unfold big in S2. cbn [app] in S2.
  change (lenz (@nil Z)) with 0 in S2. specialize (S2 ltac:(lia) ltac:(lia) ltac:(lia) ltac:(lia)).
  destruct (cmp_skip ds2 (weight w) w1) as [[r2 w2]|] eqn:E2.
  2: { destruct S2 as (i & x & ->). reflexivity. }
  destruct S2 as (q2 & Q2 & ->). cbn [bind]. apply cmp_skip_len in E2. rewrite Q1, Q2 in *.
  rewrite !app_length.
  destruct (w1 =? w2).
  - pose proof (cmp_both_m c r1 r2 q1 q2 (length q1 + length r1 + 1) ltac:(lia) ltac:(unfold big; lia) ltac:(unfold big; lia)) as S.
    destruct (m_cmp_both c _ _ _ _ _ _ _) as [[s|[i1 i2]]| | |], (cmp_both c r1 r2) as [[s'|[t1 t2]]| | |]; cbn [sim] in S; try contradiction; cbn [bind]; try congruence.
    destruct S as (u1 & u2 & U1 & U2 & -> & ->). pose proof (f_equal (@length Z) U1) as N1. pose proof (f_equal (@length Z) U2) as N2.
    rewrite !app_length in N1, N2. rewrite U1, U2 in *. apply cmp_rest_sim; unfold big; lia.
  - cbn [bind]. apply cmp_rest_sim; unfold big; lia.
Qed.

(** ** signed *)
Lemma zero_scaled_m c B s : - B <= s <= B -> 0 <= B -> sim (mrep B) (m_zero_scaled c s) (zero_scaled c s).
Proof.
  intros H LB. unfold m_zero_scaled, zero_scaled. apply sim_same. intros _ _. rewrite dassert_ok by reflexivity. cbn [bind sim].
  split; constructor; cbn [p_nd p_weight p_dscale p_sign p_cow]; auto; try lia.
  - now exists [].
Qed.

Lemma mrep_set_sign B p v s : mrep B p v -> mrep B (p_set_sign s p) (set_sign s v).
Proof. intros [R [F1 F2 F3 F4]]. split; [now apply rep_set_sign|]. constructor; cbn; auto. Qed.
Lemma mrep_set_dscale B p v s : - B <= s <= B -> mrep B p v -> mrep B (p_set_dscale s p) (set_dscale s v).
Proof. intros H [R [F1 F2 F3 F4]]. split; [now apply rep_set_dscale|]. constructor; cbn; auto. Qed.

Lemma signed_m B s x y : sim (mrep B) x y ->
  sim (mrep B) (r <- x ;; Ret (p_set_sign s r)) (r <- y ;; Ret (set_sign s r)).
Proof. intro S. apply (sim_bind (mrep B) _ _ _ _ _ S). intros p v M. now apply mrep_set_sign. Qed.

Lemma cmp_case_m c a B p q v w s1 s2 : 0 <= B <= 3000000 -> mrep B p v -> mrep B q w ->
  sim (mrep (10 * B + 100))
    (cmp <- m_cmp_abs c p q ;;
     if cmp =? 0 then m_zero_scaled c (Z.max (p_dscale p) (p_dscale q))
     else if cmp =? 1 then r <- m_sub_abs c a p q ;; Ret (p_set_sign s1 r)
     else if cmp =? -1 then r <- m_sub_abs c a q p ;; Ret (p_set_sign s2 r)
     else Panic (WMsg MInvalidCmp))
    (cmp <- cmp_abs c v w ;;
     if cmp =? 0 then zero_scaled c (Z.max (dscale v) (dscale w))
     else if cmp =? 1 then r <- sub_abs c v w ;; Ret (set_sign s1 r)
     else if cmp =? -1 then r <- sub_abs c w v ;; Ret (set_sign s2 r)
     else Panic (WMsg MInvalidCmp)).
Proof.
  intros LB M1 M2. rewrite (cmp_abs_m c B p q v w) by (try assumption; lia). apply sim_same. intros cmp _.
  pose proof M1 as [R1 [A1 A2 A3 A4]]. pose proof M2 as [R2 [B1 B2 B3 B4]].
  rewrite (rp_dscale p v R1), (rp_dscale q w R2) in *.
  destruct (cmp =? 0); [apply zero_scaled_m; lia|].
  destruct (cmp =? 1); [apply signed_m, sub_abs_m; assumption|].
  destruct (cmp =? -1); [apply signed_m, sub_abs_m; assumption|reflexivity].
Qed.

Lemma add_common_m c a B p q v w : 0 <= B <= 3000000 -> mrep B p v -> mrep B q w ->
  sim (mrep (10 * B + 100)) (m_add_common c a p q) (add_common c v w).
Proof.
  intros LB M1 M2. unfold m_add_common, add_common, is_nan, m_nan, is_positive, m_pos.
  rewrite (rp_sign p v (proj1 M1)), (rp_sign q w (proj1 M2)). apply sim_same. intros _ _. apply sim_same. intros _ _.
  destruct (sgn_eqb (sign v) SPos), (sgn_eqb (sign w) SPos).
  - apply signed_m, add_abs_m; assumption.
  - apply cmp_case_m; assumption.
  - apply cmp_case_m; assumption.
  - apply signed_m, add_abs_m; assumption.
Qed.
Lemma sub_common_m c a B p q v w : 0 <= B <= 3000000 -> mrep B p v -> mrep B q w ->
  sim (mrep (10 * B + 100)) (m_sub_common c a p q) (sub_common c v w).
Proof.
  intros LB M1 M2. unfold m_sub_common, sub_common, is_nan, m_nan, is_positive, m_pos, is_negative, m_neg.
  rewrite (rp_sign p v (proj1 M1)), (rp_sign q w (proj1 M2)). apply sim_same. intros _ _. apply sim_same. intros _ _.
  destruct (sgn_eqb (sign v) SPos), (sgn_eqb (sign w) SNeg).
  - apply signed_m, add_abs_m; assumption.
  - apply cmp_case_m; assumption.
  - apply cmp_case_m; assumption.
  - apply signed_m, add_abs_m; assumption.
Qed.

Lemma cmp_common_m c B p q v w : 0 <= B <= 30000000 -> mrep B p v -> mrep B q w ->
  m_cmp_common c p q = cmp_common c v w.
Proof.
  intros LB M1 M2. unfold m_cmp_common, cmp_common, is_nan, m_nan, is_positive, m_pos, is_negative, m_neg.
  rewrite (rp_sign p v (proj1 M1)), (rp_sign q w (proj1 M2)), (rp_nd p v (proj1 M1)), (rp_nd q w (proj1 M2)).
  rewrite (cmp_abs_m c B p q v w), (cmp_abs_m c B q p w v) by assumption. reflexivity.
Qed.

(** ** ceil, floor *)
Lemma clone_m c a B p v : 0 <= B <= 30000000 -> mrep B p v -> exists r, m_clone c a p = Ret r /\ mrep (B + 5) r v.
Proof.
  intros LB M. pose proof M as [R [F1 F2 F3 F4]]. pose proof (rp_cow p v R) as K. unfold m_clone.
  destruct (p_cow p) as [l|d].
  - eexists. split; [reflexivity|]. split; [destruct R; constructor; assumption|].
    constructor; cbn [p_nd p_weight p_dscale p_sign p_cow]; lia.
  - destruct K as [O D]. destruct (digits_at_len d _ D) as [O' L'].
    destruct D as (pre & post & W & Lo). set (l := digits v ++ post).
    assert (D2 : digits_at d l) by (exists pre, []; rewrite app_nil_r; now split).
    assert (E : lenz (words d) - off d = lenz l) by (unfold l; rewrite W, <- Lo, !lenz_app; lia).
    pose proof (lenz_nonneg l). rewrite E. rewrite u32_ok by lia. cbn [bind]. rewrite as_i32_ok by lia.
    rewrite (m_slice_ok c d l) by (try assumption; lia). cbn [bind].
    rewrite m_to_owned_eq by (unfold big; lia).
    destruct (to_owned_ok c a l) as (d' & E' & O2 & D3). rewrite E'. cbn [bind].
    pose proof (own_len c a (Borrowed l) d' E') as OL. cbn in OL.
    eexists. split; [reflexivity|]. split.
    + destruct R; constructor; try assumption. cbn [p_cow]. split; [lia|]. unfold l in D3. now apply digits_at_le in D3.
    + constructor; cbn [p_nd p_weight p_dscale p_sign p_cow]; lia.
Qed.

Lemma one_m B : 1 <= B -> mrep B M_ONE ONE.
Proof.
  intro H. split; constructor; cbn [p_nd p_weight p_dscale p_sign p_cow M_ONE]; try reflexivity; try lia.
  - now exists [].
  - change (lenz [1]) with 1. lia.
Qed.

Lemma ceil_m c a B p v : 1 <= B <= 100000 -> mrep B p v ->
  sim (mrep (20 * B + 1000)) (m_ceil_common c a p) (ceil_common c v).
Proof.
  intros LB M. unfold m_ceil_common, ceil_common, is_nan, m_nan, is_positive, m_pos.
  rewrite (rp_sign p v (proj1 M)). apply sim_same. intros _ _.
  destruct (clone_m c (a 0%nat) B p v) as (r & E & Mr); [lia|exact M|]. rewrite E. cbn [bind].
  apply (sim_bind (mrep (B + 15))); [apply (sim_weaken (B + 5 + 10)); [lia|]; apply trunc_m; [lia|lia|exact Mr]|].
  intros t u Mt. destruct (sgn_eqb (sign v) SPos); cbn [bind].
  2: { apply (mrep_mono (B + 15)); [lia|exact Mt]. }
  rewrite (cmp_common_m c (B + 15) p t v u); [|lia|apply (mrep_mono B); [lia|exact M]|exact Mt].
  rewrite bind_assoc. apply sim_same. intros cmp _. cbn [bind]. destruct (cmp =? 0); cbn [negb].
  - apply (mrep_mono (B + 15)); [lia|exact Mt].
  - apply (sim_weaken (10 * (B + 15) + 100)); [lia|]. apply add_common_m; [lia|exact Mt|apply one_m; lia].
Qed.
Lemma floor_m c a B p v : 1 <= B <= 100000 -> mrep B p v ->
  sim (mrep (20 * B + 1000)) (m_floor_common c a p) (floor_common c v).
Proof.
  intros LB M. unfold m_floor_common, floor_common, is_nan, m_nan, is_negative, m_neg.
  rewrite (rp_sign p v (proj1 M)). apply sim_same. intros _ _.
  destruct (clone_m c (a 0%nat) B p v) as (r & E & Mr); [lia|exact M|]. rewrite E. cbn [bind].
  apply (sim_bind (mrep (B + 15))); [apply (sim_weaken (B + 5 + 10)); [lia|]; apply trunc_m; [lia|lia|exact Mr]|].
  intros t u Mt. destruct (sgn_eqb (sign v) SNeg); cbn [bind].
  2: { apply (mrep_mono (B + 15)); [lia|exact Mt]. }
  rewrite (cmp_common_m c (B + 15) p t v u); [|lia|apply (mrep_mono B); [lia|exact M]|exact Mt].
  rewrite bind_assoc. apply sim_same. intros cmp _. cbn [bind]. destruct (cmp =? 0); cbn [negb].
  - apply (mrep_mono (B + 15)); [lia|exact Mt].
  - apply (sim_weaken (10 * (B + 15) + 100)); [lia|]. apply sub_common_m; [lia|exact Mt|apply one_m; lia].
Qed.
