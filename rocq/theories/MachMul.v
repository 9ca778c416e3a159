(** * MachMul: multiplication, machine level (Mach.v) against Var.v. *)
From Coq Require Import ZArith List Bool Lia.
From Verif Require Import Base Var Binary Data Digits Arith DataSim DataApi Mach MachSim MachAdd.
Import ListNotations.
Open Scope Z_scope.

(** ** A loop from the right that carries a state and replaces each entry. *)
Fixpoint rfold {S A} (one : A -> S -> outcome (S * Z)) (l : list A) (s : S) : outcome (S * list Z) :=
  match l with
  | [] => Ret (s, [])
  | x :: t => '(s1, t') <- rfold one t s ;; '(s2, y) <- one x s1 ;; Ret (s2, y :: t')
  end.

Lemma rfold_snoc {S A} (one : A -> S -> outcome (S * Z)) l x : forall s,
  rfold one (l ++ [x]) s = ('(s1, y) <- one x s ;; '(s2, l') <- rfold one l s1 ;; Ret (s2, l' ++ [y])).
Proof.
  induction l as [|z t IH]; intro s; cbn [app rfold bind].
  - destruct (one x s) as [[s1 y]| | |]; reflexivity.
  - rewrite IH. destruct (one x s) as [[s1 y]| | |]; cbn [bind]; try reflexivity.
    destruct (rfold one t s1) as [[s2 l']| | |]; cbn [bind]; try reflexivity.
    destruct (one z s2) as [[s3 y']| | |]; reflexivity.
Qed.

Lemma for_rev_rfold {S A} (one : A -> S -> outcome (S * Z)) (body : Z -> S * list Z -> outcome (S * list Z)) (val : A -> Z) pre :
  forall L post s,
  (forall l x r out s, L = l ++ x :: r -> length out = (length r + length post)%nat ->
     body (lenz l) (s, pre ++ map val l ++ val x :: out) = ('(s', y) <- one x s ;; Ret (s', pre ++ map val l ++ y :: out))) ->
  for_rev (length L) body (s, pre ++ map val L ++ post) = ('(s', out) <- rfold one L s ;; Ret (s', pre ++ out ++ post)).
Proof.
  intro L. induction L as [|x L IH] using rev_ind; intros post s H; [reflexivity|].
  rewrite app_length, Nat.add_1_r. cbn [for_rev]. change (Z.of_nat (length L)) with (lenz L).
  rewrite map_app, <- app_assoc. cbn [map app]. rewrite (H L x [] post s eq_refl eq_refl), rfold_snoc, !bind_assoc.
  apply bind_ext. intros [s1 y] _. cbn [bind].
  rewrite (IH (y :: post) s1).
  - rewrite bind_assoc. apply bind_ext. intros [s2 out] _. cbn [bind]. now rewrite <- app_assoc.
  - intros l z r out s' -> E. apply (H l z (r ++ [x])); [now rewrite <- app_assoc|].
    rewrite E, app_length. cbn [length]. lia.
Qed.

Lemma rfold_len {S A} (one : A -> S -> outcome (S * Z)) l : forall s s' out,
  rfold one l s = Ret (s', out) -> length out = length l.
Proof.
  induction l as [|x t IH]; intros s s' out E; cbn [rfold] in E.
  - injection E as _ <-. reflexivity.
  - apply bind_ret in E. destruct E as ([s1 t'] & E1 & E). apply bind_ret in E. destruct E as ([s2 y] & _ & E).
    injection E as _ <-. cbn. f_equal. exact (IH _ _ _ E1).
Qed.

(** ** the carry passes *)
Definition carry_one (c : cfg) (d carry : Z) : outcome (Z * Z) :=
  nd <- i32 c (d + carry) ;;
  if NBASE <=? nd then
    m <- i32 c (Z.quot nd NBASE * NBASE) ;;
    nd' <- i32 c (nd - m) ;; Ret (Z.quot nd NBASE, nd')
  else Ret (0, nd).

Lemma carry_pass_rfold c dig : carry_pass c dig = rfold (carry_one c) dig 0.
Proof.
  induction dig as [|d t IH]; [reflexivity|]. cbn [carry_pass rfold]. rewrite IH. apply bind_ext. intros [carry t'] _.
  unfold carry_one. rewrite !bind_assoc. apply bind_ext. intros nd _. cbn zeta. destruct (NBASE <=? nd); [|reflexivity].
  rewrite !bind_assoc. apply bind_ext. intros m _. rewrite !bind_assoc. apply bind_ext. intros nd' _. reflexivity.
Qed.

Lemma carry_pass_m c dig ext : m_carry_pass c (lenz dig) (dig ++ ext) =
  ('(carry, dig') <- carry_pass c dig ;; Ret (carry, dig' ++ ext)).
Proof.
  unfold m_carry_pass. rewrite to_nat_lenz, carry_pass_rfold.
  pose proof (for_rev_rfold (carry_one c) (m_carry_digit c) (fun x => x) [] dig ext 0) as E.
  rewrite map_id in E. cbn [app] in E. rewrite E; [reflexivity|].
  intros l x r out s _ _. rewrite map_id. unfold m_carry_digit. rewrite get_at. cbn [bind].
  unfold carry_one. rewrite !bind_assoc. apply bind_ext. intros nd _. destruct (NBASE <=? nd).
  - rewrite !bind_assoc. apply bind_ext. intros m _. rewrite !bind_assoc. apply bind_ext. intros nd' _. now rewrite set_unchecked_app.
  - now rewrite set_unchecked_app.
Qed.

Definition store_one (c : cfg) (e : Z * Z) (carry : Z) : outcome (Z * Z) :=
  '(cr, y) <- carry_one c (fst e) carry ;; Ret (cr, as_i16 y).

Lemma store_rfold c : forall dig res, length res = length dig ->
  rfold (store_one c) (combine dig res) 0 = ('(carry, ds) <- carry_pass c dig ;; Ret (carry, map as_i16 ds)).
Proof.
  intros dig res. rewrite carry_pass_rfold. revert res. induction dig as [|d t IH]; intros [|r rs] L; try discriminate; [reflexivity|].
  cbn [combine rfold]. rewrite IH by (cbn in L; lia). rewrite !bind_assoc. apply bind_ext. intros [carry t'] _. cbn [bind].
  unfold store_one. cbn [fst]. rewrite !bind_assoc. apply bind_ext. intros [cr y] _. reflexivity.
Qed.

Lemma combine_split {A B} : forall (a : list A) (b : list B) l x r, length a = length b -> combine a b = l ++ x :: r ->
  exists a1 a2 b1 b2, a = a1 ++ fst x :: a2 /\ b = b1 ++ snd x :: b2 /\ length a1 = length l /\ length b1 = length l /\ b1 = map snd l.
Proof.
  induction a as [|x a IH]; intros [|y b] l z r L E; try discriminate; cbn in E.
  - destruct l; discriminate.
  - destruct l as [|u l]; cbn in E.
    + injection E as <- <-. exists [], a, [], b. cbn. auto.
    + injection E as <- E. destruct (IH b l z r) as (a1 & a2 & b1 & b2 & -> & -> & L1 & L2 & E2); [cbn in L; lia|exact E|].
      exists (x :: a1), a2, (y :: b1), b2. cbn. repeat split; auto; congruence.
Qed.
Lemma map_snd_combine {A B} : forall (a : list A) (b : list B), length a = length b -> map snd (combine a b) = b.
Proof. induction a as [|x a IH]; intros [|y b] L; try discriminate; [reflexivity|]. cbn. f_equal. apply IH. cbn in L. lia. Qed.

Lemma store_m c dig ext res : length res = length dig ->
  for_rev (length dig) (m_mul_store c (dig ++ ext)) (0, res) = ('(carry, ds) <- carry_pass c dig ;; Ret (carry, map as_i16 ds)).
Proof.
  intro L. pose proof (for_rev_rfold (store_one c) (m_mul_store c (dig ++ ext)) snd [] (combine dig res) [] 0) as E.
  rewrite map_snd_combine, app_nil_r in E by congruence. cbn [app] in E.
  replace (length (combine dig res)) with (length dig) in E by (rewrite combine_length; lia).
  rewrite E.
  - rewrite store_rfold by exact L. rewrite !bind_assoc. apply bind_ext. intros [cr ds] _. cbn [bind]. now rewrite app_nil_r.
  - intros l x r out s Ex _. destruct (combine_split dig res l x r) as (a1 & a2 & b1 & b2 & E1 & E2 & L1 & L2 & E3); [congruence|exact Ex|].
    unfold m_mul_store. rewrite E1, <- app_assoc. cbn [app]. rewrite get_app by (unfold lenz; lia). cbn [bind].
    unfold store_one, carry_one. rewrite !bind_assoc. apply bind_ext. intros nd _. destruct (NBASE <=? nd).
    + rewrite !bind_assoc. apply bind_ext. intros m _. rewrite !bind_assoc. apply bind_ext. intros nd' _.
      rewrite set_unchecked_app by (unfold lenz; now rewrite map_length). reflexivity.
    + rewrite set_unchecked_app by (unfold lenz; now rewrite map_length). reflexivity.
Qed.

(** ** the inner loop *)
Lemma set_nth_app_l {A} (l m : list A) k x : (k < length l)%nat -> set_nth (l ++ m) k x = set_nth l k x ++ m.
Proof. revert k. induction l as [|y t IH]; intros [|k] H; cbn in *; try lia; [reflexivity|]. now rewrite IH by lia. Qed.
Lemma get_ext {A} (l m : list A) i : i < lenz l -> get_unchecked (l ++ m) i = get_unchecked l i.
Proof.
  intro H. unfold get_unchecked. destruct (Z.ltb_spec i 0); [reflexivity|]. rewrite nth_error_app1; [reflexivity|]. unfold lenz in H. lia.
Qed.
Lemma set_ext {A} (l m : list A) i x : i < lenz l -> set_unchecked (l ++ m) i x = (l' <- set_unchecked l i x ;; Ret (l' ++ m)).
Proof.
  intro H. unfold set_unchecked. destruct (Z.ltb_spec i 0); [reflexivity|].
  replace (lenz (l ++ m) <=? i) with false by (symmetry; apply Z.leb_gt; rewrite lenz_app; pose proof (lenz_nonneg m); lia).
  replace (lenz l <=? i) with false by (symmetry; apply Z.leb_gt; lia). cbn [orb bind].
  rewrite set_nth_app_l by (unfold lenz in H; lia). reflexivity.
Qed.

Lemma mul_inner_m c d1 ds2 ext : forall k dig i, i < lenz dig -> i <= big -> - big <= i - Z.of_nat k ->
  ('(_, dig') <- for_rev k (m_mul_add c d1 ds2) (i, dig ++ ext) ;; Ret dig') =
  (dig' <- mul_inner c k dig d1 ds2 i ;; Ret (dig' ++ ext)).
Proof.
  induction k as [|k IH]; intros dig i H1 H2 H3; [reflexivity|]. unfold big in *. cbn [for_rev mul_inner].
  unfold m_mul_add at 1. rewrite (get_ext dig ext i H1), !bind_assoc. apply bind_ext. intros x _.
  rewrite !bind_assoc. apply bind_ext. intros y _. rewrite !bind_assoc. apply bind_ext. intros t _.
  rewrite !bind_assoc. apply bind_ext. intros s _. rewrite (set_ext dig ext i s H1), !bind_assoc. apply bind_ext. intros dig' E.
  cbn [bind]. rewrite i32_ok by lia. cbn [bind]. apply set_unchecked_len in E. apply IH; lia.
Qed.

Lemma mul_inner_len c d1 ds2 : forall k dig i dig', mul_inner c k dig d1 ds2 i = Ret dig' -> lenz dig' = lenz dig.
Proof.
  induction k as [|k IH]; intros dig i dig' E; cbn [mul_inner] in E; [injection E as <-; reflexivity|].
  do 4 (apply bind_ret in E; destruct E as (? & _ & E)). apply bind_ret in E. destruct E as (d2 & E1 & E).
  apply IH in E. apply set_unchecked_len in E1. lia.
Qed.
Lemma carry_pass_len c dig cr d' : carry_pass c dig = Ret (cr, d') -> lenz d' = lenz dig.
Proof. rewrite carry_pass_rfold. intro E. apply rfold_len in E. unfold lenz. now rewrite E. Qed.

Lemma get_in {A} (l : list A) i x : get_unchecked l i = Ret x -> In x l.
Proof.
  unfold get_unchecked. destruct (i <? 0); [discriminate|]. destruct (nth_error l (Z.to_nat i)) eqn:E; [|discriminate].
  intro H. injection H as <-. exact (nth_error_In _ _ E).
Qed.

(** ** the outer loop *)
Lemma mul_outer_m c n ds1 ds2 ext : Forall dig ds1 -> 0 <= n <= big -> lenz ds2 <= big -> forall k dig md,
  Z.of_nat k <= n -> lenz dig = n ->
  ('(_, dig') <- for_rev k (m_mul_step c (lenz ds2) n ds1 ds2) (md, dig ++ ext) ;; Ret dig') =
  (dig' <- mul_outer c k dig md ds1 ds2 n ;; Ret (dig' ++ ext)).
Proof.
  unfold big. intros FD LN L2. induction k as [|k IH]; intros dig md LK LD; [reflexivity|]. cbn [for_rev mul_outer].
  unfold m_mul_step at 1. cbn zeta. rewrite !bind_assoc. apply bind_ext. intros d1 E1. apply get_in in E1.
  rewrite Forall_forall in FD. apply FD in E1. unfold Digits.dig in E1. rewrite <- Forall_forall in FD.
  pose proof (lenz_nonneg ds2).
  destruct (d1 =? 0); [cbn [bind]; apply IH; lia|].
  rewrite !bind_assoc. apply bind_ext. intros md' _.
  set (big_md := Z.quot (I32_MAX - Z.quot I32_MAX NBASE) (NBASE - 1) <? md').
  assert (S : (if big_md then '(carry, dig) <- m_carry_pass c n (dig ++ ext) ;; dassert c (carry =? 0) ;;;
                 max_dig <- i32 c (1 + d1) ;; Ret (max_dig, dig)
               else Ret (md', dig ++ ext)) =
              ('(m, d) <- (if big_md then '(carry, dig') <- carry_pass c dig ;; dassert c (carry =? 0) ;;; Ret (1 + d1, dig')
                           else Ret (md', dig)) ;; Ret (m, d ++ ext))).
  { destruct big_md; [|reflexivity]. rewrite <- LD, carry_pass_m, !bind_assoc. apply bind_ext. intros [cr d'] _. cbn [bind].
    rewrite !bind_assoc. apply bind_ext. intros _ _. rewrite i32_ok by lia. reflexivity. }
  rewrite S, !bind_assoc. clear S. apply bind_ext. intros [md2 dig2] E2. cbn [bind].
  assert (LD2 : lenz dig2 = n).
  { destruct big_md; [|injection E2 as _ <-; exact LD]. apply bind_ret in E2. destruct E2 as ([cr d'] & E2 & E3).
    apply carry_pass_len in E2. apply bind_ret in E3. destruct E3 as (_ & _ & E3). injection E3 as _ <-. lia. }
  rewrite i32_ok by lia. cbn [bind]. rewrite i32_ok by lia. cbn [bind]. rewrite i32_ok by lia. cbn [bind].
  set (bound := Z.min (lenz ds2 - 1) (n - Z.of_nat k - 3)).
  assert (BB : bound <= n - Z.of_nat k - 3) by (unfold bound; lia).
  assert (BC : - 3 <= bound) by (unfold bound; lia).
  rewrite i32_ok by lia. cbn [bind]. rewrite i32_ok by lia. cbn [bind].
  pose proof (mul_inner_m c d1 ds2 ext (Z.to_nat (bound + 1)) dig2 (Z.of_nat k + bound + 2) ltac:(lia) ltac:(unfold big; lia) ltac:(unfold big; lia)) as EI.
  destruct (for_rev (Z.to_nat (bound + 1)) _ _) as [[j dig3]| | |]; cbn [bind] in EI |- *;
    destruct (mul_inner c _ dig2 d1 ds2 _) as [dig4| | |] eqn:E4; cbn [bind] in EI |- *; try congruence.
  apply Ret_inj in EI. subst dig3. apply mul_inner_len in E4. apply IH; lia.
Qed.

Lemma mul_outer_len c n ds1 ds2 : forall k dig md dig', mul_outer c k dig md ds1 ds2 n = Ret dig' -> lenz dig' = lenz dig.
Proof.
  induction k as [|k IH]; intros dig md dig' E; cbn [mul_outer] in E; [injection E as <-; reflexivity|]. cbn zeta in E.
  apply bind_ret in E. destruct E as (d1 & _ & E). destruct (d1 =? 0); [exact (IH _ _ _ E)|].
  apply bind_ret in E. destruct E as (md' & _ & E). apply bind_ret in E. destruct E as ([md2 dig2] & E2 & E).
  apply bind_ret in E. destruct E as (dig3 & E3 & E). apply IH in E. apply mul_inner_len in E3.
  assert (LD2 : lenz dig2 = lenz dig).
  { destruct (_ <? _); [|injection E2 as _ <-; reflexivity]. apply bind_ret in E2. destruct E2 as ([cr d'] & E2 & E4).
    apply carry_pass_len in E2. apply bind_ret in E4. destruct E4 as (_ & _ & E4). injection E4 as _ <-. lia. }
  lia.
Qed.

Lemma zeros_app n m : 0 <= n -> 0 <= m -> zeros (n + m) = zeros n ++ zeros m.
Proof. intros H1 H2. unfold zeros. rewrite Z2Nat.inj_add by lia. apply repeat_app. Qed.
Lemma lenz_zeros' n : 0 <= n -> lenz (zeros n) = n.
Proof. intro H. unfold zeros, lenz. rewrite repeat_length. lia. Qed.

Lemma quot4_abs x y : - y <= x <= y -> - y <= Z.quot x 4 <= y.
Proof.
  intro H. destruct (Z.le_gt_cases 0 x).
  - pose proof (quot4_bound x). lia.
  - replace x with (- - x) by lia. rewrite Z.quot_opp_l by lia. pose proof (quot4_bound (- x)). lia.
Qed.

Lemma mul_common_m c a B B2 p q v w rs : 0 <= B -> 0 <= B2 -> B + B2 <= 7000000 -> - (2 * (B + B2)) <= rs <= 2 * (B + B2) ->
  Forall dig (digits v) -> Forall dig (digits w) -> mrep B p v -> mrep B2 q w ->
  sim (mrep (8 * (B + B2) + 70)) (m_mul_common c a p q rs) (mul_common c v w rs).
Proof.
  intros LB LB2 LBB LR F1 F2 M1 M2. unfold m_mul_common, mul_common, is_nan, m_nan.
  rewrite (rp_sign p v (proj1 M1)), (rp_sign q w (proj1 M2)). apply sim_same. intros _ _. apply sim_same. intros _ _.
  rewrite (rp_nd p v (proj1 M1)), (rp_nd q w (proj1 M2)).
  assert (K : forall B B2 p q v w, 0 <= B -> 0 <= B2 -> B + B2 <= 7000000 -> - (2 * (B + B2)) <= rs <= 2 * (B + B2) ->
    Forall dig (digits v) -> Forall dig (digits w) -> mrep B p v -> mrep B2 q w ->
    sim (mrep (8 * (B + B2) + 70))
     (ds1 <- m_digits c p ;;
      ds2 <- m_digits c q ;;
      if (p_nd p =? 0) || (p_nd q =? 0) then m_zero_scaled c rs
      else
        t <- i32 c (p_weight p + p_weight q) ;;
        res_weight <- i32 c (t + 2) ;;
        t <- i32 c (p_nd p + p_nd q) ;;
        nd <- i32 c (t + 1) ;;
        t <- i32 c (res_weight + 1) ;;
        s <- i32 c (rs + DEC_DIGITS) ;;
        s <- i32 c (s - 1) ;;
        t <- i32 c (t + Z.quot s DEC_DIGITS) ;;
        max_digits <- i32 c (t + MUL_GUARD_DIGITS) ;;
        let res_ndigits := Z.min nd max_digits in
        if res_ndigits <? 3 then m_zero_scaled c rs
        else
          size <- usize c (res_ndigits * 4) ;;
          b1 <- i32 c (p_nd p - 1) ;;
          b2 <- i32 c (res_ndigits - 3) ;;
          '(_, dig) <- for_rev (Z.to_nat (Z.min b1 b2 + 1)) (m_mul_step c (p_nd q) res_ndigits ds1 ds2) (0, zeros size) ;;
          d <- m_new c a res_ndigits ;;
          res <- m_slice c d res_ndigits ;;
          '(carry, res) <- for_rev (Z.to_nat res_ndigits) (m_mul_store c dig) (0, res) ;;
          dassert c (carry =? 0) ;;;
          r <- m_round_common c a (PVar res_ndigits res_weight 0 (if sgn_eqb (p_sign p) (p_sign q) then SPos else SNeg) (Owned (write_back d res))) rs ;;
          m_strip c a r)
     (if (ndigits v =? 0) || (ndigits w =? 0) then zero_scaled c rs
      else
        let res_weight := weight v + weight w + 2 in
        let max_digits := res_weight + 1 + Z.quot (rs + DEC_DIGITS - 1) DEC_DIGITS + MUL_GUARD_DIGITS in
        let res_ndigits := Z.min (ndigits v + ndigits w + 1) max_digits in
        if res_ndigits <? 3 then zero_scaled c rs
        else
          dig <- mul_outer c (Z.to_nat (Z.min (ndigits v - 1) (res_ndigits - 3) + 1)) (zeros res_ndigits) 0
                   (digits v) (digits w) res_ndigits ;;
          '(carry, ds) <- carry_pass c dig ;;
          dassert c (carry =? 0) ;;;
          r <- round_common c (Var res_weight 0 (if sgn_eqb (sign v) (sign w) then SPos else SNeg) (map as_i16 ds)) rs ;;
          Ret (strip r))).
  { clear. intros B B2 p q v w LB LB2 LBB LR F1 F2 M1 M2. pose proof M1 as [R1 [A1 A2 A3 A4]]. pose proof M2 as [R2 [B1 B2' B3 B4]].
    rewrite (m_digits_ok c B p v) by (try assumption; unfold big; lia).
    rewrite (m_digits_ok c B2 q w) by (try assumption; unfold big; lia). cbn [bind].
    rewrite (rp_weight p v R1), (rp_weight q w R2), (rp_nd p v R1), (rp_nd q w R2), (rp_sign p v R1), (rp_sign q w R2) in *.
    destruct (_ || _); [apply zero_scaled_m; lia|]. change DEC_DIGITS with 4. change MUL_GUARD_DIGITS with 2. cbn zeta.
    set (n1 := ndigits v) in *. set (n2 := ndigits w) in *. set (w1 := weight v) in *. set (w2 := weight w) in *.
    pose proof (quot4_abs (rs + 4 - 1) (2 * (B + B2) + 3) ltac:(lia)) as Q. ari.
    set (N := Z.min (n1 + n2 + 1) (w1 + w2 + 2 + 1 + Z.quot (rs + 4 - 1) 4 + 2)).
    assert (NB : N <= B + B2 + 1) by (unfold N; lia).
    destruct (Z.ltb_spec N 3); [apply zero_scaled_m; lia|]. rewrite usize_ok by lia. cbn [bind]. ari.
    replace (N * 4) with (N + 3 * N) by lia. rewrite zeros_app by lia.
    set (ext := zeros (3 * N)).
    pose proof (mul_outer_m c N (digits v) (digits w) ext F1 ltac:(unfold big; lia)) as MO.
    unfold ndigits in n1, n2. fold n2 in MO.
    specialize (MO ltac:(unfold big; lia) (Z.to_nat (Z.min (n1 - 1) (N - 3) + 1)) (zeros N) 0 ltac:(lia) (lenz_zeros' N ltac:(lia))).
    destruct (for_rev (Z.to_nat (Z.min (n1 - 1) (N - 3) + 1)) _ _) as [[mm dg]| | |];
      destruct (mul_outer c _ _ _ _ _ _) as [dg'| | |] eqn:EO; cbn [bind] in MO |- *; try congruence; try (cbn; congruence); try exact I.
    apply Ret_inj in MO. subst dg. apply mul_outer_len in EO. rewrite (lenz_zeros' N ltac:(lia)) in EO.
    destruct (m_new_ok c a N) as (d & l & E & O & D & L & W & S); [lia|]. rewrite E. cbn [bind]. rewrite S. cbn [bind].
    replace (Z.to_nat N) with (length dg') by (unfold lenz in EO; lia).
    rewrite (store_m c dg' ext l) by (unfold lenz in *; lia).
    destruct (carry_pass c dg') as [[cr ds]| | |] eqn:EC; cbn [bind]; try reflexivity; try exact I. apply carry_pass_len in EC.
    apply sim_same. intros _ _.
    apply (sim_weaken (2 * (4 * (B + B2) + 30) + 5)); [lia|].
    apply (sim_bind (mrep (4 * (B + B2) + 30))).
    - apply (sim_weaken (4 * (B + B2) + 20 + 10)); [lia|]. apply round_m; [lia|lia|].
      apply (fresh_mrep _ d l); auto; try lia. unfold lenz in *. rewrite map_length. lia.
    - intros r u M. apply strip_m; [lia|exact M]. }
  destruct (ndigits w <? ndigits v).
  - replace (B + B2) with (B2 + B) in * by lia. apply (K B2 B q p w v); assumption.
  - apply (K B B2 p q v w); assumption.
Qed.
