(** * MachDivFast: fast division, machine level (MachFast.v) against Transc.v. *)
From Coq Require Import ZArith QArith List Bool Lia.
From Verif Require Import Base Var Binary Parse Num Flt Transc Data Digits Arith DataSim DataApi Mach MachSim MachAdd MachMul MachDiv MachFast.
Import ListNotations.
Open Scope Z_scope.

Lemma for_up_ext {S} (f g : Z -> S -> outcome S) : forall k i s,
  (forall j t, i <= j < i + Z.of_nat k -> f j t = g j t) -> for_up k i f s = for_up k i g s.
Proof.
  induction k as [|k IH]; intros i s H; [reflexivity|]. cbn [for_up]. rewrite H by lia. apply bind_ext. intros t _.
  apply IH. intros j u L. apply H. lia.
Qed.

Lemma load_m c ds1 post : lenz ds1 <= big -> forall t pre u, ds1 = pre ++ t -> length u = length t ->
  for_up (length t) (lenz pre) (m_df_load c ds1) (0 :: pre ++ u ++ post) = Ret (0 :: ds1 ++ post).
Proof.
  unfold big. intro L1. induction t as [|x t IH]; intros pre u E L.
  - destruct u; [|discriminate]. rewrite app_nil_r in E. subst pre. reflexivity.
  - destruct u as [|y u]; [discriminate|]. cbn [length for_up]. unfold m_df_load at 1.
    pose proof (lenz_nonneg pre). pose proof (lenz_nonneg t). assert (lenz pre <= lenz ds1) by (rewrite E, lenz_app, lenz_cons; lia).
    rewrite usize_ok by lia. cbn [bind]. rewrite E at 1. rewrite get_at. cbn [bind app].
    change (0 :: pre ++ y :: u ++ post) with ((0 :: pre) ++ y :: u ++ post).
    rewrite set_unchecked_app by (rewrite lenz_cons; lia). cbn [bind].
    replace ((0 :: pre) ++ x :: u ++ post) with (0 :: (pre ++ [x]) ++ u ++ post) by (cbn; now rewrite <- app_assoc).
    replace (lenz pre + 1) with (lenz (pre ++ [x])) by (rewrite lenz_app; reflexivity).
    apply IH; [now rewrite <- app_assoc|]. cbn in L. lia.
Qed.

Lemma first4_up r0 t :
  for_up 3 1 (fun i f =>
    let f := fmul f (inject_Z NBASE) in
    if i <? lenz (r0 :: t) then x <- get_unchecked (r0 :: t) i ;; Ret (fadd f (inject_Z x)) else Ret f) (inject_Z r0) = Ret (first4 (r0 :: t)).
Proof.
  cbn [for_up]. cbn zeta. unfold first4, horner. generalize fmul as M, fadd as A. intros M A. destruct t as [|x t]; [reflexivity|].
  pose proof (lenz_nonneg t). replace (1 <? lenz (r0 :: x :: t)) with true by (symmetry; apply Z.ltb_lt; rewrite !lenz_cons; lia).
  change (get_unchecked (r0 :: x :: t) 1) with (Ret x). cbn [bind]. change (1 + 1) with 2.
  destruct t as [|y t]; [reflexivity|].
  replace (2 <? lenz (r0 :: x :: y :: t)) with true by (symmetry; apply Z.ltb_lt; rewrite !lenz_cons; pose proof (lenz_nonneg t); lia).
  change (get_unchecked (r0 :: x :: y :: t) 2) with (Ret y). cbn [bind]. change (2 + 1) with 3.
  destruct t as [|z t]; [reflexivity|].
  replace (3 <? lenz (r0 :: x :: y :: z :: t)) with true by (symmetry; apply Z.ltb_lt; rewrite !lenz_cons; pose proof (lenz_nonneg t); lia).
  reflexivity.
Qed.

Lemma fdivisor_m ds2 : ds2 <> [] -> m_fdivisor ds2 (lenz ds2) = Ret (first4 ds2).
Proof. intro N. destruct ds2 as [|d t]; [congruence|]. unfold m_fdivisor. change (index (d :: t) 0) with (Ret d). cbn [bind]. apply first4_up. Qed.

Lemma get_shift {A} (pre l : list A) i : 0 <= i -> get_unchecked (pre ++ l) (lenz pre + i) = get_unchecked l i.
Proof.
  intro H. unfold get_unchecked. pose proof (lenz_nonneg pre). rewrite (proj2 (Z.ltb_ge (lenz pre + i) 0)), (proj2 (Z.ltb_ge i 0)) by lia.
  rewrite nth_error_app2 by (unfold lenz; lia). replace (Z.to_nat (lenz pre + i) - length pre)%nat with (Z.to_nat i) by (unfold lenz; lia). reflexivity.
Qed.

Lemma fdividend_m c done r0 t : lenz (done ++ r0 :: t) <= big ->
  m_fdividend c (done ++ r0 :: t) (lenz done) (lenz done + lenz t) = Ret (first4 (r0 :: t)).
Proof.
  unfold big. intro L. unfold m_fdividend. rewrite get_at. cbn [bind]. rewrite <- first4_up. apply for_up_ext. intros j f Hj. cbn zeta.
  rewrite lenz_app, lenz_cons in L. pose proof (lenz_nonneg done). pose proof (lenz_nonneg t).
  rewrite usize_ok by lia. cbn [bind]. rewrite as_i32_ok by lia. rewrite get_shift by lia. rewrite lenz_cons.
  replace (lenz done + j <=? lenz done + lenz t) with (j <? 1 + lenz t); [reflexivity|].
  destruct (Z.ltb_spec j (1 + lenz t)), (Z.leb_spec (lenz done + j) (lenz done + lenz t)); auto; lia.
Qed.

(** ** carries *)
Definition down_one (c : cfg) (d carry : Z) : outcome (Z * Z) := x <- i32 c (d + carry) ;; carry_of c x.
Lemma carry_down_rfold c l : carry_down c l = rfold (down_one c) l 0.
Proof.
  induction l as [|d t IH]; [reflexivity|]. cbn [carry_down rfold]. rewrite IH. apply bind_ext. intros [carry t'] _.
  unfold down_one. rewrite bind_assoc. apply bind_ext. intros x _. reflexivity.
Qed.
Lemma carry_down_len c l k l' : carry_down c l = Ret (k, l') -> lenz l' = lenz l.
Proof. rewrite carry_down_rfold. intro E. apply rfold_len in E. unfold lenz. now rewrite E. Qed.

Lemma df_carry_m c pre t :
  for_rev (length t) (m_df_carry c (lenz pre)) (0, pre ++ t) = ('(k, t') <- carry_down c t ;; Ret (k, pre ++ t')).
Proof.
  rewrite carry_down_rfold. pose proof (for_rev_rfold (down_one c) (m_df_carry c (lenz pre)) (fun x => x) pre t [] 0) as E.
  rewrite map_id, app_nil_r in E. rewrite E.
  - apply bind_ext. intros [k t'] _. now rewrite app_nil_r.
  - intros l x r out s _ _. rewrite map_id. unfold m_df_carry, down_one.
    rewrite get_shift by apply lenz_nonneg. rewrite get_at. cbn [bind]. rewrite bind_assoc. apply bind_ext. intros nd _.
    apply bind_ext. intros [k d'] _. rewrite !app_assoc. rewrite set_unchecked_app by (rewrite lenz_app; lia). reflexivity.
Qed.

Definition dstore_one (c : cfg) (e : Z * Z) (carry : Z) : outcome (Z * Z) :=
  '(cr, y) <- down_one c (fst e) carry ;; Ret (cr, as_i16 y).
Lemma dstore_rfold c : forall qs res, length res = length qs ->
  rfold (dstore_one c) (combine qs res) 0 = ('(carry, ds) <- carry_down c qs ;; Ret (carry, map as_i16 ds)).
Proof.
  intros qs res. rewrite carry_down_rfold. revert res. induction qs as [|d t IH]; intros [|r rs] L; try discriminate; [reflexivity|].
  cbn [combine rfold]. rewrite IH by (cbn in L; lia). rewrite ?bind_assoc. apply bind_ext. intros [carry t'] _. cbn [bind].
  unfold dstore_one. cbn [fst]. rewrite ?bind_assoc. apply bind_ext. intros [cr y] _. reflexivity.
Qed.
Lemma df_store_m c qs res : length res = length qs ->
  for_rev (length qs) (m_df_store c qs) (0, res) = ('(carry, ds) <- carry_down c qs ;; Ret (carry, map as_i16 ds)).
Proof.
  intro L. pose proof (for_rev_rfold (dstore_one c) (m_df_store c qs) snd [] (combine qs res) [] 0) as E.
  rewrite map_snd_combine, app_nil_r in E by congruence. cbn [app] in E.
  replace (length (combine qs res)) with (length qs) in E by (rewrite combine_length; lia).
  rewrite E.
  - rewrite dstore_rfold by exact L. rewrite ?bind_assoc. apply bind_ext. intros [cr ds] _. cbn [bind]. now rewrite app_nil_r.
  - intros l x r out s Ex _. destruct (combine_split qs res l x r) as (a1 & a2 & b1 & b2 & E1 & E2 & L1 & L2 & E3); [congruence|exact Ex|].
    unfold m_df_store. rewrite E1. rewrite get_app by (unfold lenz; lia). cbn [bind].
    unfold dstore_one, down_one. rewrite ?bind_assoc. apply bind_ext. intros nd _. rewrite ?bind_assoc. apply bind_ext. intros [k d'] _.
    cbn [bind]. rewrite set_unchecked_app by (unfold lenz; now rewrite map_length). reflexivity.
Qed.

(** ** subtraction *)
Lemma df_sub_m c q qi : 0 <= qi -> forall rem ds pre2 done, lenz done = qi + lenz pre2 -> lenz (done ++ rem) <= big ->
  for_up (Nat.min (length ds) (length rem)) (lenz pre2) (m_df_sub c q qi (pre2 ++ ds)) (done ++ rem) =
  (r <- sub_mul c q rem ds ;; Ret (done ++ r)).
Proof.
  unfold big. intro Q0. induction rem as [|r rem IH]; intros ds pre2 done E L.
  { destruct ds; reflexivity. }
  destruct ds as [|d ds]; [reflexivity|]. cbn [length Nat.min for_up sub_mul]. unfold m_df_sub at 1.
  pose proof (lenz_nonneg pre2). pose proof (lenz_nonneg rem). rewrite lenz_app, lenz_cons in L.
  rewrite usize_ok by lia. cbn [bind]. rewrite get_app by lia. cbn [bind]. rewrite get_at. cbn [bind].
  rewrite ?bind_assoc. apply bind_ext. intros t _. rewrite ?bind_assoc. apply bind_ext. intros s _.
  rewrite set_unchecked_app by lia. cbn [bind].
  replace (done ++ s :: rem) with ((done ++ [s]) ++ rem) by now rewrite <- app_assoc.
  replace (lenz pre2 + 1) with (lenz (pre2 ++ [d])) by (rewrite lenz_app; reflexivity).
  replace (pre2 ++ d :: ds) with ((pre2 ++ [d]) ++ ds) by now rewrite <- app_assoc.
  rewrite IH.
  - rewrite bind_assoc. apply bind_ext. intros rest _. cbn [bind]. now rewrite <- app_assoc.
  - rewrite !lenz_app. change (lenz [s]) with 1. change (lenz [d]) with 1. lia.
  - rewrite !lenz_app. change (lenz [s]) with 1. lia.
Qed.
Lemma sub_mul_len c q : forall rem ds r, sub_mul c q rem ds = Ret r -> lenz r = lenz rem.
Proof.
  induction rem as [|x rem IH]; intros ds r E; cbn [sub_mul] in E; [destruct ds; injection E as <-; reflexivity|].
  destruct ds as [|d ds]; [injection E as <-; reflexivity|].
  apply bind_ret in E. destruct E as (p & _ & E). apply bind_ret in E. destruct E as (s & _ & E). apply bind_ret in E. destruct E as (rest & E1 & E).
  injection E as <-. rewrite !lenz_cons. now rewrite (IH _ _ E1).
Qed.

(** ** one quotient digit *)
Lemma df_step_m c ds2 finv done rem md : lenz (done ++ rem) <= big -> 2 <= lenz rem ->
  m_df_step c ds2 (lenz ds2) (lenz done + lenz rem - 1) finv (lenz done) (md, done ++ rem) =
  ('(q, md', rem') <- df_step c ds2 finv md rem ;; Ret (md', done ++ q :: rem')) /\
  (forall q md' rem', df_step c ds2 finv md rem = Ret (q, md', rem') -> lenz rem' = lenz rem - 1).
Proof.
  unfold big. intros L L2. pose proof (lenz_nonneg done) as ND. pose proof (lenz_nonneg ds2) as N2. rewrite lenz_app in L.
  destruct rem as [|r0 t]; [cbn in L2; lia|]. rewrite lenz_cons in L, L2.
  assert (FD : forall x t', lenz t' = lenz t ->
    m_fdividend c (done ++ x :: t') (lenz done) (lenz done + lenz (r0 :: t) - 1) = Ret (first4 (x :: t'))).
  { intros x t' Lt. rewrite lenz_cons. replace (lenz done + (1 + lenz t) - 1) with (lenz done + lenz t') by lia.
    apply fdividend_m. unfold big. rewrite lenz_app, lenz_cons. lia. }
  unfold m_df_step, df_step. rewrite FD by reflexivity. cbn [bind]. unfold estimate at 1 3.
  set (inner := fun q => if q =? 0 then Ret (q, md, r0 :: t) else
       a <- i32 c (Z.abs q) ;;
       max_div <- i32 c (md + a) ;;
       '(q, max_div, rem) <-
         (if MAX_DIV <? max_div then
            '(carry, t') <- carry_down c t ;;
            r0' <- i32 c (r0 + carry) ;;
            q <- estimate c (r0' :: t') finv ;;
            a <- i32 c (Z.abs q) ;;
            max_div <- i32 c (1 + a) ;;
            Ret (q, max_div, r0' :: t')
          else Ret (q, max_div, r0 :: t)) ;;
       if q =? 0 then Ret (q, max_div, rem)
       else rem <- sub_mul c q rem ds2 ;; Ret (q, max_div, rem)).
  assert (IL : forall q q' md' rem', inner q = Ret (q', md', rem') -> lenz rem' = 1 + lenz t).
  { intros q q' md' rem' E. unfold inner in E. destruct (q =? 0); [injection E as _ _ <-; apply lenz_cons|].
    apply bind_ret in E. destruct E as (a & _ & E). apply bind_ret in E. destruct E as (mx & _ & E).
    apply bind_ret in E. destruct E as ([[q1 mx1] rem1] & E1 & E).
    assert (LR : lenz rem1 = 1 + lenz t).
    { destruct (MAX_DIV <? mx); [|injection E1 as _ _ <-; apply lenz_cons].
      apply bind_ret in E1. destruct E1 as ([cr t'] & Ec & E1). apply carry_down_len in Ec.
      do 4 (apply bind_ret in E1; destruct E1 as (? & _ & E1)). injection E1 as _ _ <-. rewrite lenz_cons. lia. }
    destruct (q1 =? 0); [injection E as _ _ <-; exact LR|].
    apply bind_ret in E. destruct E as (rem2 & E2 & E). injection E as _ _ <-. apply sub_mul_len in E2. lia. }
  match goal with |- context [bind (quot_digit c (fmul (first4 (r0 :: t)) finv)) _] => idtac end.
  assert (IN : forall q,
    (if q =? 0 then Ret (q, md, done ++ r0 :: t)
     else
       b <- i32 c (Z.abs q) ;;
       max_div <- i32 c (md + b) ;;
       '(qdigit, max_div, div) <-
         (if MAX_DIV <? max_div then
            lo <- usize c (lenz done + 1) ;;
            '(carry, div) <- for_rev (Z.to_nat (lenz done + lenz (r0 :: t) - 1 - lenz done)) (m_df_carry c lo) (0, done ++ r0 :: t) ;;
            x <- get_unchecked div (lenz done) ;;
            new_dig <- i32 c (x + carry) ;;
            div <- set_unchecked div (lenz done) new_dig ;;
            fdividend <- m_fdividend c div (lenz done) (lenz done + lenz (r0 :: t) - 1) ;;
            qdigit <- quot_digit c (fmul fdividend finv) ;;
            b <- i32 c (Z.abs qdigit) ;;
            max_div <- i32 c (1 + b) ;;
            Ret (qdigit, max_div, div)
          else Ret (q, max_div, done ++ r0 :: t)) ;;
       if qdigit =? 0 then Ret (qdigit, max_div, div)
       else
         t0 <- i32 c (lenz done + lenz (r0 :: t) - 1 - as_i32 (lenz done)) ;;
         t0 <- i32 c (t0 + 1) ;;
         div <- for_up (Z.to_nat (Z.min (lenz ds2) t0)) 0 (m_df_sub c qdigit (lenz done) ds2) div ;;
         Ret (qdigit, max_div, div)) =
    ('(q', mx, rem) <- inner q ;; Ret (q', mx, done ++ rem))).
  { intro q. unfold inner. destruct (q =? 0); [reflexivity|]. rewrite ?bind_assoc. apply bind_ext. intros a _.
    rewrite ?bind_assoc. apply bind_ext. intros mx _. rewrite ?bind_assoc.
    assert (S : (if MAX_DIV <? mx then
            lo <- usize c (lenz done + 1) ;;
            '(carry, div) <- for_rev (Z.to_nat (lenz done + lenz (r0 :: t) - 1 - lenz done)) (m_df_carry c lo) (0, done ++ r0 :: t) ;;
            x <- get_unchecked div (lenz done) ;;
            new_dig <- i32 c (x + carry) ;;
            div <- set_unchecked div (lenz done) new_dig ;;
            fdividend <- m_fdividend c div (lenz done) (lenz done + lenz (r0 :: t) - 1) ;;
            qdigit <- quot_digit c (fmul fdividend finv) ;;
            b <- i32 c (Z.abs qdigit) ;;
            max_div <- i32 c (1 + b) ;;
            Ret (qdigit, max_div, div)
          else Ret (q, mx, done ++ r0 :: t)) =
       ('(q, mx, rem) <- (if MAX_DIV <? mx then
            '(carry, t') <- carry_down c t ;;
            r0' <- i32 c (r0 + carry) ;;
            q <- estimate c (r0' :: t') finv ;;
            a <- i32 c (Z.abs q) ;;
            max_div <- i32 c (1 + a) ;;
            Ret (q, max_div, r0' :: t')
          else Ret (q, mx, r0 :: t)) ;; Ret (q, mx, done ++ rem))).
    { destruct (MAX_DIV <? mx); [|reflexivity]. rewrite usize_ok by lia. cbn [bind].
      replace (Z.to_nat (lenz done + lenz (r0 :: t) - 1 - lenz done)) with (length t) by (rewrite lenz_cons; unfold lenz; lia).
      replace (done ++ r0 :: t) with ((done ++ [r0]) ++ t) by now rewrite <- app_assoc.
      replace (lenz done + 1) with (lenz (done ++ [r0])) by (rewrite lenz_app; reflexivity).
      rewrite df_carry_m, !bind_assoc. apply bind_ext. intros [cr t'] Ec. apply carry_down_len in Ec. cbn [bind].
      rewrite <- app_assoc. cbn [app]. rewrite get_at. cbn [bind]. rewrite ?bind_assoc. apply bind_ext. intros x _.
      rewrite set_unchecked_app by reflexivity. cbn [bind]. rewrite FD by exact Ec. cbn [bind]. unfold estimate.
      rewrite ?bind_assoc. apply bind_ext. intros q1 _. rewrite ?bind_assoc. apply bind_ext. intros b _.
      rewrite ?bind_assoc. apply bind_ext. intros m1 _. reflexivity. }
    rewrite S, !bind_assoc. apply bind_ext. intros [[q1 mx1] rem1] E1. cbn [bind].
    assert (LR : lenz rem1 = 1 + lenz t).
    { destruct (MAX_DIV <? mx); [|injection E1 as _ _ <-; apply lenz_cons].
      apply bind_ret in E1. destruct E1 as ([cr t'] & Ec & E1). apply carry_down_len in Ec.
      do 4 (apply bind_ret in E1; destruct E1 as (? & _ & E1)). injection E1 as _ _ <-. rewrite lenz_cons. lia. }
    destruct (q1 =? 0); [reflexivity|]. rewrite lenz_cons. rewrite as_i32_ok by lia. rewrite i32_ok by lia. cbn [bind]. rewrite i32_ok by lia. cbn [bind].
    replace (Z.to_nat (Z.min (lenz ds2) (lenz done + (1 + lenz t) - 1 - lenz done + 1))) with (Nat.min (length ds2) (length rem1)) by (unfold lenz in *; lia).
    pose proof (df_sub_m c q1 (lenz done) ND rem1 ds2 [] done) as DS. cbn [app] in DS. change (lenz (@nil Z)) with 0 in DS.
    rewrite DS; [|lia|unfold big; rewrite lenz_app; lia]. rewrite ?bind_assoc. apply bind_ext. intros rem2 _. reflexivity. }
  split.
  - rewrite ?bind_assoc. apply bind_ext. intros q _. fold (inner q). rewrite IN, !bind_assoc. apply bind_ext. intros [[q1 mx1] rem1] E1. cbn [bind].
    apply IL in E1. destruct rem1 as [|x0 [|x1 rem1]]; [change (lenz (@nil Z)) with 0 in E1; pose proof (lenz_nonneg t); lia|rewrite lenz_cons in E1; change (lenz (@nil Z)) with 0 in E1; lia|].
    rewrite get_at. cbn [bind]. rewrite usize_ok by lia. cbn [bind].
    replace (done ++ x0 :: x1 :: rem1) with ((done ++ [x0]) ++ x1 :: rem1) by now rewrite <- app_assoc.
    rewrite get_app by (rewrite lenz_app; reflexivity). cbn [bind]. rewrite ?bind_assoc. apply bind_ext. intros p _.
    rewrite ?bind_assoc. apply bind_ext. intros s _. rewrite set_unchecked_app by (rewrite lenz_app; reflexivity). cbn [bind].
    rewrite <- app_assoc. cbn [app]. rewrite set_unchecked_app by reflexivity. reflexivity.
  - intros q md' rem' E. apply bind_ret in E. destruct E as (q0 & _ & E). fold (inner q0) in E. apply bind_ret in E. destruct E as ([[q1 mx1] rem1] & E1 & E).
    apply IL in E1. destruct rem1 as [|x0 [|x1 rem1]]; [discriminate|discriminate|].
    apply bind_ret in E. destruct E as (p & _ & E). apply bind_ret in E. destruct E as (s & _ & E). injection E as _ _ <-.
    rewrite !lenz_cons in *. lia.
Qed.

(** ** the loop *)
Lemma set_checked_last (l : list Z) x y : set_checked (l ++ [x]) (lenz l) y = Ret (l ++ [y]).
Proof. now apply set_checked_app. Qed.
Lemma df_loop_m c ds2 finv : forall k done rem md n, length rem = S k -> n = lenz done + Z.of_nat k -> lenz (done ++ rem) <= big ->
  ('(_, div) <- for_up k (lenz done) (m_df_step c ds2 (lenz ds2) n finv) (md, done ++ rem) ;;
   x <- index div n ;;
   qdigit <- quot_digit c (fmul (fmul (fmul (fmul (inject_Z x) (inject_Z NBASE)) (inject_Z NBASE)) (inject_Z NBASE)) finv) ;;
   set_checked div n qdigit) =
  (qs <- df_loop c k ds2 finv md rem ;; Ret (done ++ qs)).
Proof.
  induction k as [|k IH]; intros done rem md n LR -> LB.
  - destruct rem as [|x [|y r]]; try discriminate. cbn [for_up df_loop bind]. rewrite Z.add_0_r.
    replace (index (done ++ [x]) (lenz done)) with (@Ret Z x).
    2: { unfold index. pose proof (lenz_nonneg done). rewrite (proj2 (Z.ltb_ge _ 0)) by lia.
         rewrite nth_error_app2 by (unfold lenz; lia). replace (Z.to_nat (lenz done) - length done)%nat with 0%nat by (unfold lenz; lia). reflexivity. }
    cbn [bind]. unfold estimate, first4, horner. cbn [nth_error]. rewrite bind_assoc. apply bind_ext. intros q _. cbn [bind].
    apply set_checked_last.
  - cbn [for_up df_loop]. assert (L : lenz rem = Z.of_nat k + 2) by (unfold lenz; lia).
    destruct (df_step_m c ds2 finv done rem md LB ltac:(lia)) as (E1 & E2).
    replace (lenz done + Z.of_nat (S k)) with (lenz done + lenz rem - 1) by lia. rewrite E1, !bind_assoc. apply bind_ext.
    intros [[q md'] rem'] Eq. cbn [bind]. apply E2 in Eq.
    replace (done ++ q :: rem') with ((done ++ [q]) ++ rem') by now rewrite <- app_assoc.
    replace (lenz done + 1) with (lenz (done ++ [q])) by (rewrite lenz_app; reflexivity).
    rewrite (IH (done ++ [q]) rem' md').
    + rewrite ?bind_assoc. apply bind_ext. intros qs _. cbn [bind]. now rewrite <- app_assoc.
    + unfold lenz in *. lia.
    + rewrite lenz_app. change (lenz [q]) with 1. lia.
    + rewrite !lenz_app in *. change (lenz [q]) with 1. lia.
Qed.
Lemma df_loop_len c ds2 finv : forall k rem md qs, df_loop c k ds2 finv md rem = Ret qs -> length qs = S k.
Proof.
  induction k as [|k IH]; intros rem md qs E; cbn [df_loop] in E; apply bind_ret in E.
  - destruct E as (q & _ & E). injection E as <-. reflexivity.
  - destruct E as ([[q md'] rem'] & _ & E). apply bind_ret in E. destruct E as (qs' & E1 & E). injection E as <-. cbn. f_equal. exact (IH _ _ _ E1).
Qed.

(** ** sizes of the numbers, apart from those of their buffers *)
Definition within (B : Z) (v : var) : Prop := ndigits v <= B /\ - B <= weight v <= B /\ - B <= dscale v <= B.
Definition bor (v : var) : pvar := PVar (ndigits v) (weight v) (dscale v) (sign v) (Borrowed (digits v)).
Lemma bor_m B v : within B v -> mrep B (bor v) v.
Proof.
  intros (W1 & W2 & W3). pose proof (lenz_nonneg (digits v)). unfold ndigits in *. split; constructor; cbn [bor p_nd p_weight p_dscale p_sign p_cow]; auto; try (unfold ndigits; lia).
  exists []. now rewrite app_nil_r.
Qed.
Lemma within_mono B B' v : B <= B' -> within B v -> within B' v.
Proof. unfold within. lia. Qed.
Lemma mrep_within B p v : mrep B p v -> within B v.
Proof. intros [R [F1 F2 F3 F4]]. rewrite (rp_nd p v R), (rp_weight p v R), (rp_dscale p v R) in *. unfold within. lia. Qed.

Ltac fields p v q w M1 M2 W1 W2 :=
  rewrite ?(rp_sign p v (proj1 M1)), ?(rp_sign q w (proj1 M2)), ?(rp_nd p v (proj1 M1)), ?(rp_nd q w (proj1 M2)),
    ?(rp_weight p v (proj1 M1)), ?(rp_weight q w (proj1 M2)), ?(rp_dscale p v (proj1 M1)), ?(rp_dscale q w (proj1 M2)).

Lemma add_bor c a p q v w : mrep big p v -> mrep big q w -> m_add_common c a p q = m_add_common c a (bor v) (bor w).
Proof.
  intros M1 M2. pose proof (bor_m big v (mrep_within _ _ _ M1)) as N1. pose proof (bor_m big w (mrep_within _ _ _ M2)) as N2.
  unfold m_add_common, m_add_abs, m_sub_abs, m_cmp_abs, m_nan, m_pos, m_neg. 
  rewrite !(m_digits_ok c big p v), !(m_digits_ok c big q w), !(m_digits_ok c big (bor v) v), !(m_digits_ok c big (bor w) w) by (assumption || lia).
  fields p v q w M1 M2 N1 N2. reflexivity.
Qed.
Lemma mul_bor c a p q v w rs : mrep big p v -> mrep big q w -> m_mul_common c a p q rs = m_mul_common c a (bor v) (bor w) rs.
Proof.
  intros M1 M2. pose proof (bor_m big v (mrep_within _ _ _ M1)) as N1. pose proof (bor_m big w (mrep_within _ _ _ M2)) as N2.
  unfold m_mul_common, m_nan. fields p v q w M1 M2 N1 N2. cbn [bor p_nd p_sign].
  destruct (ndigits w <? ndigits v);
  rewrite !(m_digits_ok c big p v), !(m_digits_ok c big q w), !(m_digits_ok c big (bor v) v), !(m_digits_ok c big (bor w) w) by (assumption || lia);
  fields p v q w M1 M2 N1 N2; reflexivity.
Qed.
Lemma cmp_bor c p q v w : mrep big p v -> mrep big q w -> m_cmp_common c p q = m_cmp_common c (bor v) (bor w).
Proof.
  intros M1 M2. pose proof (bor_m big v (mrep_within _ _ _ M1)) as N1. pose proof (bor_m big w (mrep_within _ _ _ M2)) as N2.
  unfold m_cmp_common, m_cmp_abs, m_nan, m_pos, m_neg.
  rewrite !(m_digits_ok c big p v), !(m_digits_ok c big q w), !(m_digits_ok c big (bor v) v), !(m_digits_ok c big (bor w) w) by (assumption || lia).
  fields p v q w M1 M2 N1 N2. reflexivity.
Qed.

Lemma add_t c a B p q v w : 0 <= B <= 3000000 -> mrep big p v -> mrep big q w -> within B v -> within B w ->
  sim (mrep (10 * B + 100)) (m_add_common c a p q) (add_common c v w).
Proof. intros LB M1 M2 W1 W2. rewrite (add_bor c a p q v w M1 M2). apply add_common_m; auto using bor_m. Qed.
Lemma mul_t c a B p q v w rs : 0 <= B <= 3000000 -> - (2 * B) <= rs <= 2 * B -> Forall dig (digits v) -> Forall dig (digits w) ->
  mrep big p v -> mrep big q w -> within B v -> within B w ->
  sim (mrep (16 * B + 70)) (m_mul_common c a p q rs) (mul_common c v w rs).
Proof.
  intros LB LR D1 D2 M1 M2 W1 W2. rewrite (mul_bor c a p q v w rs M1 M2).
  replace (16 * B + 70) with (8 * (B + B) + 70) by lia. apply mul_common_m; auto using bor_m; lia.
Qed.
Lemma cmp_t c B p q v w : 0 <= B <= 30000000 -> mrep big p v -> mrep big q w -> within B v -> within B w ->
  m_cmp_common c p q = cmp_common c v w.
Proof. intros LB M1 M2 W1 W2. rewrite (cmp_bor c p q v w M1 M2). apply (cmp_common_m c B); auto using bor_m. Qed.

(** ** fast division *)
Local Strategy 100 [fmul fadd fdiv quot_digit first4 i32 usize carry_of m_round_common m_strip round_common].
Lemma div_fast_m c a B p q v w rs round : 0 <= B <= 1000000 -> - B <= rs <= B -> mrep big p v -> mrep big q w -> within B v -> within B w ->
  sim (orel (mrep (8 * B + 200))) (m_div_fast_common c a p q rs round) (div_fast_common c v w rs round).
Proof.
  intros LB LR M1 M2 W1 W2. pose proof M1 as [R1 _]. pose proof M2 as [R2 _].
  unfold m_div_fast_common, div_fast_common, is_nan, m_nan.
  rewrite (rp_sign p v R1), (rp_sign q w R2). apply sim_same. intros _ _. apply sim_same. intros _ _. cbn zeta.
  rewrite (m_digits_ok c big p v), (m_digits_ok c big q w) by (assumption || lia). cbn [bind].
  rewrite (rp_weight p v R1), (rp_weight q w R2), (rp_nd p v R1), (rp_nd q w R2).
  apply sim_same. intros is0 E0. destruct is0; [exact I|].
  destruct (Z.eqb_spec (ndigits v) 0) as [Z1|Z1].
  { apply (sim_bind (mrep B)); [apply zero_scaled_m; lia|]. intros z1 z2 Mz. cbn [sim orel]. apply (mrep_mono B); [lia|exact Mz]. }
  destruct W1 as (A1 & A2 & A3). destruct W2 as (B1 & B2 & B3). pose proof (lenz_nonneg (digits v)) as P1. pose proof (lenz_nonneg (digits w)) as P2.
  fold (ndigits v) in P1. fold (ndigits w) in P2.
  change DEC_DIGITS with 4. change DIV_GUARD_DIGITS with 4.
  set (n1 := ndigits v) in *. set (n2 := ndigits w) in *. set (rw := weight v - weight w + 1).
  assert (RW : - (2 * B + 1) <= rw <= 2 * B + 1) by (unfold rw; lia).
  pose proof (quot4_abs (rs + 4 - 1) (B + 3) ltac:(lia)) as Q. rewrite i32_ok by lia. cbn [bind]. fold rw. ari.
  set (k := rw + 1 + Z.quot (rs + 4 - 1) 4 + 4).
  set (N := if (if k <? 4 then 4 else k) <? n1 then n1 else if k <? 4 then 4 else k).
  assert (EN : df_ndigits rw rs n1 = N).
  { unfold df_ndigits, N. change DEC_DIGITS with 4. change DIV_GUARD_DIGITS with 4. fold k. assert (EK : (if k <? 4 then 4 else k) = Z.max k 4) by (destruct (Z.ltb_spec k 4); lia). rewrite EK. destruct (Z.ltb_spec (Z.max k 4) n1); lia. }
  rewrite EN. assert (NB : n1 <= N <= 3 * B + 20 /\ 4 <= N).
  { rewrite <- EN. unfold df_ndigits. change DEC_DIGITS with 4. change DIV_GUARD_DIGITS with 4. fold k. unfold k. lia. }
  clearbody N. clear EN. rewrite usize_ok by lia. cbn [bind].
  assert (NZ : digits w <> []).
  { intro H. unfold n2, ndigits in E0. rewrite H in E0. cbn in E0. discriminate. }
  assert (LD : for_up (Z.to_nat n1) 0 (m_df_load c (digits v)) (zeros (N + 1)) = Ret (0 :: digits v ++ zeros (N - n1))).
  { replace (zeros (N + 1)) with (0 :: [] ++ zeros n1 ++ zeros (N - n1)).
    - replace (Z.to_nat n1) with (length (digits v)) by (unfold n1, ndigits, lenz; lia).
      apply (load_m c (digits v) (zeros (N - n1)) ltac:(unfold big; fold (ndigits v); fold n1; lia) (digits v) [] (zeros n1) eq_refl).
      unfold zeros. rewrite repeat_length. unfold n1, ndigits, lenz. lia.
    - cbn [app]. rewrite <- zeros_app by lia. replace (n1 + (N - n1)) with N by lia. unfold zeros. replace (Z.to_nat (N + 1)) with (S (Z.to_nat N)) by lia. reflexivity. }
  rewrite LD. cbn [bind]. unfold n2. unfold ndigits at 1. rewrite (fdivisor_m (digits w) NZ). cbn [bind].
  set (finv := fdiv 1 (first4 (digits w))). clearbody finv. set (div := 0 :: digits v ++ zeros (N - n1)).
  assert (LV : length div = S (Z.to_nat N)).
  { unfold div. cbn [length]. rewrite app_length. unfold zeros. rewrite repeat_length. unfold n1, ndigits, lenz. unfold n1, ndigits, lenz in NB. lia. }
  pose proof (df_loop_m c (digits w) finv (Z.to_nat N) [] div 1 N LV) as DL. cbn [app] in DL. change (lenz (@nil Z)) with 0 in DL.
  specialize (DL ltac:(lia) ltac:(unfold big, lenz; lia)). fold (ndigits w) in DL. 
  destruct (for_up (Z.to_nat N) 0 (m_df_step c (digits w) (ndigits w) N finv) (1, div)) as [[md dv]| | |]; cbn [bind] in DL |- *;
    destruct (df_loop c (Z.to_nat N) (digits w) finv 1 div) as [qs| | |] eqn:EQ; cbn [bind] in DL |- *; try discriminate; try (cbn [sim]; congruence); try exact I.
  1: { destruct (index dv N) as [x| | |]; cbn [bind] in DL |- *; try discriminate.
    destruct (quot_digit c _) as [qd| | |]; cbn [bind] in DL |- *; try discriminate. rewrite DL. cbn [bind]. clear DL dv md.
    apply df_loop_len in EQ. rewrite i32_ok by lia. cbn [bind].
    destruct (m_new_ok c a (N + 1)) as (d & l & E & O & D & L & W & S); [lia|]. rewrite E. cbn [bind]. rewrite S. cbn [bind].
    replace (Z.to_nat (N + 1)) with (length qs) by lia.
    rewrite (df_store_m c qs l) by (unfold lenz in L; lia). rewrite !bind_assoc.
    apply sim_same. intros [cr ds] EC. apply carry_down_len in EC. cbn [bind]. apply sim_same. intros _ _.
    apply (sim_bind (mrep (3 * B + 50))).
    + assert (MF : mrep (3 * B + 40) (PVar (N + 1) rw 0 (if sgn_eqb (sign v) (sign w) then SPos else SNeg) (Owned (write_back d (map as_i16 ds))))
                   (Var rw 0 (if sgn_eqb (sign v) (sign w) then SPos else SNeg) (map as_i16 ds))).
      { apply (fresh_mrep _ d l); auto; try lia. unfold lenz in *. rewrite map_length. lia. }
      apply (sim_weaken (3 * B + 40 + 10)); [lia|]. destruct round; [apply round_m|apply trunc_m]; try exact MF; lia.
    + intros r u Mr. pose proof (strip_m c a (3 * B + 50) r u ltac:(lia) Mr) as ST.
      destruct (m_strip c a r) as [r'| | |]; cbn [sim] in ST; try contradiction. cbn [bind sim orel].
      apply (mrep_mono (2 * (3 * B + 50) + 5)); [lia|exact ST]. }
  all: destruct (index dv N) as [x| | |]; cbn [bind sim] in DL |- *; try congruence; try exact I;
    destruct (quot_digit c _) as [qd| | |]; cbn [bind sim] in DL |- *; try congruence; try exact I;
    rewrite DL; cbn; try congruence; exact I.
Qed.
