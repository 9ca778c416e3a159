(** * MachDiv: division, machine level (Mach.v) against Var.v. *)
From Coq Require Import ZArith List Bool Lia.
From Verif Require Import Base Var Binary Data Digits Arith DataSim DataApi Mach MachSim MachAdd MachMul.
Import ListNotations.
Open Scope Z_scope.

(** ** the scale of a quotient *)
Lemma first_m c : forall ds pre w last k, (length ds < k)%nat -> lenz (pre ++ ds) <= big -> - big <= w <= big ->
  m_first c k (pre ++ ds) (lenz (pre ++ ds)) (lenz pre) w last = Ret (first_digit ds (w - lenz pre) last).
Proof.
  unfold big. induction ds as [|d t IH]; intros pre w last k K L W; (destruct k as [|k]; [cbn in K; lia|]); cbn [m_first first_digit].
  - now rewrite app_nil_r, Z.ltb_irrefl.
  - pose proof (lenz_nonneg pre). pose proof (lenz_nonneg t). rewrite lenz_app, lenz_cons in *.
    replace (lenz pre <? lenz pre + (1 + lenz t)) with true by (symmetry; apply Z.ltb_lt; lia).
    rewrite get_at. cbn [bind]. destruct (d =? 0); cbn [negb].
    2: { rewrite i32_ok by lia. reflexivity. }
    specialize (IH (pre ++ [d]) w d k). rewrite <- app_assoc in IH. cbn [app] in IH.
    rewrite !lenz_app, !lenz_cons in IH. change (lenz (@nil Z)) with 0 in IH.
    replace (lenz pre + (1 + 0)) with (lenz pre + 1) in IH by lia.
    replace (w - lenz pre - 1) with (w - (lenz pre + 1)) by lia.
    apply IH; [cbn in K|..]; lia.
Qed.
Lemma first_bound B : forall ds w last, 0 <= B -> - B <= w - lenz ds -> w <= B -> - B <= fst (first_digit ds w last) <= B.
Proof.
  induction ds as [|d t IH]; intros w last HB H1 H2; cbn [first_digit fst]; [lia|]. rewrite lenz_cons in H1. pose proof (lenz_nonneg t).
  destruct (d =? 0); cbn [fst]; [apply IH; lia|lia].
Qed.

Lemma select_m c B p q v w : 0 <= B <= 30000000 -> mrep B p v -> mrep B q w ->
  m_select_div_scale c p q = Ret (select_div_scale v w).
Proof.
  intros LB M1 M2. pose proof M1 as [R1 [A1 A2 A3 A4]]. pose proof M2 as [R2 [B1 B2 B3 B4]].
  unfold m_select_div_scale, select_div_scale.
  rewrite (m_digits_ok c B p v) by (try assumption; unfold big; lia). cbn [bind].
  rewrite (m_digits_ok c B q w) by (try assumption; unfold big; lia).
  rewrite (rp_weight p v R1), (rp_weight q w R2), (rp_dscale p v R1), (rp_dscale q w R2), (rp_nd p v R1), (rp_nd q w R2) in *.
  unfold ndigits in *. rewrite !to_nat_lenz.
  pose proof (first_m c (digits v) [] (weight v) 0 (length (digits v) + 1) ltac:(lia) ltac:(cbn [app]; unfold big; lia) ltac:(unfold big; lia)) as E1.
  pose proof (first_m c (digits w) [] (weight w) 0 (length (digits w) + 1) ltac:(lia) ltac:(cbn [app]; unfold big; lia) ltac:(unfold big; lia)) as E2.
  cbn [app] in E1, E2. change (lenz (@nil Z)) with 0 in E1, E2. rewrite Z.sub_0_r in E1, E2. rewrite E1. cbn [bind].
  pose proof (first_bound (2 * B) (digits v) (weight v) 0 ltac:(lia) ltac:(lia) ltac:(lia)) as F1.
  pose proof (first_bound (2 * B) (digits w) (weight w) 0 ltac:(lia) ltac:(lia) ltac:(lia)) as F2.
  destruct (first_digit (digits v) (weight v) 0) as [w1 f1]. rewrite E2. cbn [bind].
  destruct (first_digit (digits w) (weight w) 0) as [w2 f2]. cbn [fst] in F1, F2.
  change DEC_DIGITS with 4. change NUMERIC_MIN_SIG_DIGITS with 16.
  rewrite i32_ok by lia. cbn [bind]. destruct (f1 <=? f2); [rewrite i32_ok by lia|]; cbn [bind]; ari; reflexivity.
Qed.

(** ** one divisor digit *)
Lemma short_m c d1 : forall k us pre done rest carry, length rest = k -> (k <= length us)%nat -> lenz pre = lenz done + 1 ->
  lenz (pre ++ us) <= big ->
  ('(_, res) <- for_up k (lenz done) (m_div_short c (pre ++ us) d1) (carry, done ++ rest) ;; Ret res) =
  (q <- div_short c k us d1 carry ;; Ret (done ++ q)).
Proof.
  unfold big. induction k as [|k IH]; intros us pre done rest carry L1 L2 L3 L4.
  { destruct rest; [|discriminate]. reflexivity. }
  destruct us as [|u us]; [cbn in L2; lia|]. destruct rest as [|r rest]; [discriminate|].
  cbn [for_up div_short]. unfold m_div_short at 1. rewrite !bind_assoc. apply bind_ext. intros m _.
  pose proof (lenz_nonneg us). pose proof (lenz_nonneg done). rewrite lenz_app, lenz_cons in L4.
  rewrite usize_ok by lia. cbn [bind]. rewrite get_app by lia. cbn [bind]. rewrite !bind_assoc. apply bind_ext. intros cr _.
  destruct (d1 =? 0); [reflexivity|]. rewrite set_unchecked_app by reflexivity. cbn [bind].
  replace (lenz done + 1) with (lenz (done ++ [as_i16 (Z.quot cr d1)])) by (rewrite lenz_app; reflexivity).
  replace (pre ++ u :: us) with ((pre ++ [u]) ++ us) by now rewrite <- app_assoc.
  replace (done ++ as_i16 (Z.quot cr d1) :: rest) with ((done ++ [as_i16 (Z.quot cr d1)]) ++ rest) by now rewrite <- app_assoc.
  rewrite (IH us (pre ++ [u])).
  - rewrite bind_assoc. apply bind_ext. intros q _. cbn [bind]. now rewrite <- app_assoc.
  - cbn in L1. lia.
  - cbn in L2. lia.
  - rewrite !lenz_app, L3. reflexivity.
  - rewrite !lenz_app. change (lenz [u]) with 1. lia.
Qed.

(** ** scaling *)
Definition scale_one (c : cfg) (d x carry : Z) : outcome (Z * Z) :=
  m <- i32 c (x * d) ;; carry <- i32 c (carry + m) ;; Ret (Z.quot carry NBASE, as_i16 (Z.rem carry NBASE)).
Lemma scale_rfold c d ds : scale_up c ds d = rfold (scale_one c d) ds 0.
Proof.
  induction ds as [|x t IH]; [reflexivity|]. cbn [scale_up rfold]. rewrite IH. apply bind_ext. intros [carry t'] _.
  unfold scale_one. rewrite !bind_assoc. apply bind_ext. intros m _. rewrite !bind_assoc. apply bind_ext. intros cr _. reflexivity.
Qed.
Lemma scale_m c d pre ds post : m_scale_up c (lenz pre) (length ds) d (pre ++ ds ++ post) =
  ('(carry, ds') <- scale_up c ds d ;; Ret (carry, pre ++ ds' ++ post)).
Proof.
  unfold m_scale_up. rewrite scale_rfold.
  pose proof (for_rev_rfold (scale_one c d) (m_scale_digit c (lenz pre) d) (fun x => x) pre ds post 0) as E.
  rewrite map_id in E. rewrite E; [reflexivity|].
  intros l x r out s _ _. rewrite map_id. unfold m_scale_digit.
  replace (pre ++ l ++ x :: out) with ((pre ++ l) ++ x :: out) by now rewrite <- app_assoc.
  rewrite get_app by (rewrite lenz_app; lia). cbn [bind]. unfold scale_one. rewrite !bind_assoc. apply bind_ext. intros m _.
  rewrite !bind_assoc. apply bind_ext. intros cr _. rewrite set_unchecked_app by (rewrite lenz_app; lia). cbn [bind]. now rewrite <- app_assoc.
Qed.
Lemma scale_len c d ds cr ds' : scale_up c ds d = Ret (cr, ds') -> lenz ds' = lenz ds.
Proof. rewrite scale_rfold. intro E. apply rfold_len in E. unfold lenz. now rewrite E. Qed.

(** ** multiply and subtract, add back *)
Definition ms_one (c : cfg) (qhat : Z) (e : Z * Z) (s : Z * Z) : outcome (Z * Z * Z) :=
  let '(carry, borrow) := s in
  m <- i32 c (fst e * qhat) ;;
  carry <- i32 c (carry + m) ;;
  borrow <- i32 c (borrow - Z.rem carry NBASE) ;;
  borrow <- i32 c (borrow + snd e) ;;
  if borrow <? 0 then b <- i32 c (borrow + NBASE) ;; Ret (Z.quot carry NBASE, -1, as_i16 b)
  else Ret (Z.quot carry NBASE, 0, as_i16 borrow).
Lemma ms_rfold c qhat : forall divisor win, length win = length divisor ->
  mul_sub c divisor win qhat = rfold (ms_one c qhat) (combine divisor win) (0, 0).
Proof.
  induction divisor as [|v vs IH]; intros [|u us] L; try discriminate; [reflexivity|].
  cbn [mul_sub combine rfold]. rewrite IH by (cbn in L; lia). apply bind_ext. intros [[carry borrow] us'] _.
  unfold ms_one. cbn [fst snd]. rewrite !bind_assoc. apply bind_ext. intros m _. rewrite !bind_assoc. apply bind_ext. intros cr _.
  rewrite !bind_assoc. apply bind_ext. intros b _. cbn zeta. rewrite !bind_assoc. apply bind_ext. intros b' _.
  destruct (b' <? 0); [|reflexivity]. rewrite !bind_assoc. apply bind_ext. intros b2 _. reflexivity.
Qed.
Lemma ms_m c qhat pre divisor win post : length win = length divisor -> lenz (pre ++ win ++ post) <= big ->
  for_rev (length divisor) (m_mul_sub c divisor qhat (lenz pre)) (0, 0, pre ++ win ++ post) =
  ('(s, win') <- mul_sub c divisor win qhat ;; Ret (s, pre ++ win' ++ post)).
Proof.
  unfold big. intros L LB. pose proof (for_rev_rfold (ms_one c qhat) (m_mul_sub c divisor qhat (lenz pre)) snd pre (combine divisor win) post (0, 0)) as E.
  rewrite map_snd_combine in E by congruence. replace (length (combine divisor win)) with (length divisor) in E by (rewrite combine_length; lia).
  rewrite E.
  { rewrite <- ms_rfold by exact L. reflexivity. }
  intros l x r out [carry borrow] Ex _. destruct (combine_split divisor win l x r) as (a1 & a2 & b1 & b2 & E1 & E2 & L1 & L2 & E3); [congruence|exact Ex|].
  assert (LL : lenz pre + lenz l <= 1000000000).
  { rewrite E2, !lenz_app in LB. pose proof (lenz_nonneg (snd x :: b2)). pose proof (lenz_nonneg post). unfold lenz in *. lia. }
  pose proof (lenz_nonneg pre). pose proof (lenz_nonneg l).
  unfold m_mul_sub. rewrite E1, get_app by (unfold lenz; lia). cbn [bind]. unfold ms_one.
  rewrite !bind_assoc. apply bind_ext. intros m _. rewrite !bind_assoc. apply bind_ext. intros cr _.
  rewrite !bind_assoc. apply bind_ext. intros b _. rewrite usize_ok by lia. cbn [bind].
  replace (pre ++ map snd l ++ snd x :: out) with ((pre ++ map snd l) ++ snd x :: out) by now rewrite <- app_assoc.
  assert (LM : lenz pre + lenz l = lenz (pre ++ map snd l)) by (rewrite lenz_app; unfold lenz; rewrite map_length; reflexivity).
  rewrite get_app by exact LM. cbn [bind]. rewrite !bind_assoc. apply bind_ext. intros b' _.
  destruct (b' <? 0).
  - rewrite !bind_assoc. apply bind_ext. intros b3 _. rewrite set_unchecked_app by exact LM. cbn [bind]. now rewrite <- app_assoc.
  - rewrite set_unchecked_app by exact LM. cbn [bind]. now rewrite <- app_assoc.
Qed.
Lemma ms_len c divisor win qhat s win' : length win = length divisor -> mul_sub c divisor win qhat = Ret (s, win') -> length win' = length divisor.
Proof. intros L. rewrite ms_rfold by exact L. intro E. apply rfold_len in E. rewrite E, combine_length. lia. Qed.

Definition ab_one (c : cfg) (e : Z * Z) (carry : Z) : outcome (Z * Z) :=
  s <- i32 c (snd e + fst e) ;;
  carry <- i32 c (carry + s) ;;
  if NBASE <=? carry then Ret (1, as_i16 (carry - NBASE)) else Ret (0, as_i16 carry).
Lemma ab_rfold c : forall divisor win, length win = length divisor ->
  add_back c divisor win = rfold (ab_one c) (combine divisor win) 0.
Proof.
  induction divisor as [|v vs IH]; intros [|u us] L; try discriminate; [reflexivity|].
  cbn [add_back combine rfold]. rewrite IH by (cbn in L; lia). apply bind_ext. intros [carry us'] _.
  unfold ab_one. cbn [fst snd]. rewrite !bind_assoc. apply bind_ext. intros m _. rewrite !bind_assoc. apply bind_ext. intros cr _.
  destruct (NBASE <=? cr); reflexivity.
Qed.
Lemma ab_m c pre divisor win post : length win = length divisor -> lenz (pre ++ win ++ post) <= big ->
  for_rev (length divisor) (m_add_back c divisor (lenz pre)) (0, pre ++ win ++ post) =
  ('(s, win') <- add_back c divisor win ;; Ret (s, pre ++ win' ++ post)).
Proof.
  unfold big. intros L LB. pose proof (for_rev_rfold (ab_one c) (m_add_back c divisor (lenz pre)) snd pre (combine divisor win) post 0) as E.
  rewrite map_snd_combine in E by congruence. replace (length (combine divisor win)) with (length divisor) in E by (rewrite combine_length; lia).
  rewrite E.
  { rewrite <- ab_rfold by exact L. reflexivity. }
  intros l x r out carry Ex _. destruct (combine_split divisor win l x r) as (a1 & a2 & b1 & b2 & E1 & E2 & L1 & L2 & E3); [congruence|exact Ex|].
  assert (LL : lenz pre + lenz l <= 1000000000).
  { rewrite E2, !lenz_app in LB. pose proof (lenz_nonneg (snd x :: b2)). pose proof (lenz_nonneg post). unfold lenz in *. lia. }
  pose proof (lenz_nonneg pre). pose proof (lenz_nonneg l).
  unfold m_add_back. rewrite usize_ok by lia. cbn [bind].
  replace (pre ++ map snd l ++ snd x :: out) with ((pre ++ map snd l) ++ snd x :: out) by now rewrite <- app_assoc.
  assert (LM : lenz pre + lenz l = lenz (pre ++ map snd l)) by (rewrite lenz_app; unfold lenz; rewrite map_length; reflexivity).
  rewrite get_app by exact LM. cbn [bind]. rewrite E1, get_app by (unfold lenz; lia). cbn [bind]. unfold ab_one.
  rewrite !bind_assoc. apply bind_ext. intros m _. rewrite !bind_assoc. apply bind_ext. intros cr Ec. apply i32_range in Ec.
  change NBASE with 10000. destruct (Z.leb_spec 10000 cr).
  - rewrite i32_ok by lia. cbn [bind]. rewrite set_unchecked_app by exact LM. cbn [bind]. now rewrite <- app_assoc.
  - rewrite set_unchecked_app by exact LM. cbn [bind]. now rewrite <- app_assoc.
Qed.
Lemma ab_len c divisor win s win' : length win = length divisor -> add_back c divisor win = Ret (s, win') -> length win' = length divisor.
Proof. intros L. rewrite ab_rfold by exact L. intro E. apply rfold_len in E. rewrite E, combine_length. lia. Qed.

(** ** one quotient digit *)
Lemma qhat_m c d1 d2 next2 j dividend u2 : usize c (j + 2) = Ret (j + 2) -> get_unchecked dividend (j + 2) = Ret u2 -> forall k qhat,
  while k (m_qhat_large c d1 d2 next2 j dividend) (fun qhat => i32 c (qhat - 1)) qhat = qhat_loop c k qhat d1 d2 next2 u2.
Proof.
  intros HU HG. induction k as [|k IH]; intro qhat; [reflexivity|]. cbn [while qhat_loop].
  unfold m_qhat_large at 1. rewrite !bind_assoc. apply bind_ext. intros l _. rewrite !bind_assoc. apply bind_ext. intros p _.
  rewrite !bind_assoc. apply bind_ext. intros r _. rewrite !bind_assoc. apply bind_ext. intros m _.
  rewrite HU. cbn [bind]. rewrite HG. cbn [bind]. rewrite !bind_assoc. apply bind_ext. intros s _. cbn [bind].
  destruct (s <? l); [|reflexivity]. apply bind_ext. intros q _. apply IH.
Qed.
Lemma qhat_range c d1 d2 next2 u2 : forall k qhat q, -2147483648 <= qhat <= 2147483648 ->
  qhat_loop c k qhat d1 d2 next2 u2 = Ret q -> -2147483648 <= q <= 2147483648.
Proof.
  induction k as [|k IH]; intros qhat q H E; [discriminate|]. cbn [qhat_loop] in E.
  do 5 (apply bind_ret in E; destruct E as (? & _ & E)). destruct (_ <? _); [|injection E as <-; exact H].
  apply bind_ret in E. destruct E as (q' & E1 & E). apply i32_range in E1. exact (IH q' q ltac:(lia) E).
Qed.
Lemma quot_range n d : -2147483648 <= n <= 2147483647 -> d <> 0 -> -2147483648 <= Z.quot n d <= 2147483648.
Proof.
  intros H D. assert (Z.abs (Z.quot n d) <= Z.abs n).
  { rewrite <- Z.quot_abs by exact D. apply Z.quot_le_upper_bound; [lia|]. nia. }
  lia.
Qed.

Lemma list3 (l : list Z) : (3 <= length l)%nat -> exists a b c t, l = a :: b :: c :: t.
Proof. destruct l as [|a [|b [|c t]]]; cbn; intro H; try lia. now exists a, b, c, t. Qed.

Lemma digit_m c divisor suf pre : (3 <= length divisor <= length suf)%nat -> lenz (pre ++ suf) <= big ->
  forall d0 d1 d2 ds, divisor = d0 :: d1 :: d2 :: ds ->
  m_div_digit c (lenz divisor - 1) d1 d2 divisor (lenz pre) (pre ++ suf) =
  ('(q, suf') <- div_step c divisor suf ;; Ret (pre ++ suf', q)).
Proof.
  intros L LB d0 d1 d2 ds ED. pose proof LB as LB'. unfold big in LB'. rewrite lenz_app in LB'.
  destruct (list3 suf ltac:(lia)) as (u0 & u1 & u2 & us & ES).
  pose proof (lenz_nonneg pre). pose proof (lenz_nonneg suf).
  unfold m_div_digit, div_step.
  assert (I1 : index divisor 1 = Ret d1) by (rewrite ED; reflexivity).
  assert (I2 : index divisor 2 = Ret d2) by (rewrite ED; reflexivity).
  rewrite I1, I2. cbn [bind].
  assert (G0 : get_unchecked (pre ++ suf) (lenz pre) = Ret u0) by (rewrite ES; now apply get_app).
  assert (G1 : get_unchecked (pre ++ suf) (lenz pre + 1) = Ret u1).
  { rewrite ES. replace (pre ++ u0 :: u1 :: u2 :: us) with ((pre ++ [u0]) ++ u1 :: u2 :: us) by now rewrite <- app_assoc.
    apply get_app. rewrite lenz_app. reflexivity. }
  assert (G2 : get_unchecked (pre ++ suf) (lenz pre + 2) = Ret u2).
  { rewrite ES. replace (pre ++ u0 :: u1 :: u2 :: us) with ((pre ++ [u0; u1]) ++ u2 :: us) by now rewrite <- app_assoc.
    apply get_app. rewrite lenz_app. reflexivity. }
  assert (S0 : get_unchecked suf 0 = Ret u0) by (rewrite ES; reflexivity).
  assert (S1 : get_unchecked suf 1 = Ret u1) by (rewrite ES; reflexivity).
  assert (S2 : get_unchecked suf 2 = Ret u2) by (rewrite ES; reflexivity).
  rewrite G0, S0, S1. cbn [bind]. rewrite !bind_assoc. apply bind_ext. intros m _.
  rewrite usize_ok by lia. cbn [bind]. rewrite G1. cbn [bind]. rewrite !bind_assoc. apply bind_ext. intros next2 EN. apply i32_range in EN.
  destruct (next2 =? 0); [reflexivity|]. rewrite !bind_assoc.
  assert (EQ : (if u0 =? d1 then i32 c (NBASE - 1) else if d1 =? 0 then Panic WDivZero else Ret (Z.quot next2 d1)) =
               (if u0 =? d1 then Ret (NBASE - 1) else if d1 =? 0 then Panic WDivZero else Ret (Z.quot next2 d1))).
  { destruct (u0 =? d1); [|reflexivity]. apply i32_ok. change NBASE with 10000. lia. }
  rewrite EQ. apply bind_ext. intros qhat Eq.
  assert (QR : -2147483648 <= qhat <= 2147483648).
  { destruct (u0 =? d1); [injection Eq as <-; change NBASE with 10000; lia|].
    destruct (Z.eqb_spec d1 0); [discriminate|]. injection Eq as <-. now apply quot_range. }
  rewrite S2. cbn [bind]. rewrite (qhat_m c d1 d2 next2 (lenz pre) (pre ++ suf) u2) by (try apply usize_ok; try assumption; lia).
  rewrite !bind_assoc. apply bind_ext. intros q Eqq. apply (qhat_range _ _ _ _ _ _ _ _ QR) in Eqq.
  destruct (Z.ltb_spec 0 q); [|reflexivity].
  set (n := length divisor). set (win := firstn n suf). set (post := skipn n suf).
  assert (SP : suf = win ++ post) by (unfold win, post; now rewrite firstn_skipn).
  assert (LW : length win = length divisor) by (unfold win; rewrite firstn_length; fold n; lia).
  replace (Z.to_nat (lenz divisor - 1 + 1)) with (length divisor) by (unfold lenz; lia).
  rewrite SP at 1. rewrite SP in LB. rewrite (ms_m c q pre divisor win post LW LB). rewrite !bind_assoc.
  apply bind_ext. intros [[carry borrow] win'] EM. apply (ms_len _ _ _ _ _ _ LW) in EM. cbn [bind].
  rewrite !bind_assoc. apply bind_ext. intros _ _.
  destruct (borrow =? 0); cbn [negb]; [reflexivity|]. rewrite i32_ok by lia. cbn [bind].
  assert (LB2 : lenz (pre ++ win' ++ post) <= big).
  { unfold lenz in *. rewrite !app_length in *. rewrite EM, <- LW. exact LB. }
  rewrite (ab_m c pre divisor win' post EM LB2). rewrite !bind_assoc. apply bind_ext. intros [cr win2] _. cbn [bind].
  rewrite !bind_assoc. apply bind_ext. intros _ _. reflexivity.
Qed.

Lemma div_step_len c divisor suf q suf' : (length divisor <= length suf)%nat -> div_step c divisor suf = Ret (q, suf') -> length suf' = length suf.
Proof.
  intros L E. unfold div_step in E.
  do 6 (apply bind_ret in E; destruct E as (? & _ & E)). destruct (_ =? 0); [injection E as _ <-; reflexivity|].
  do 3 (apply bind_ret in E; destruct E as (? & _ & E)). destruct (0 <? _); [|injection E as _ <-; reflexivity].
  apply bind_ret in E. destruct E as ([[cr b] win] & E1 & E). apply bind_ret in E. destruct E as (_ & _ & E).
  assert (LW : length (firstn (length divisor) suf) = length divisor) by (rewrite firstn_length; lia).
  apply (ms_len _ _ _ _ _ _ LW) in E1. destruct (b =? 0).
  - injection E as _ <-. rewrite app_length, skipn_length. lia.
  - apply bind_ret in E. destruct E as ([cr2 win2] & E2 & E). apply bind_ret in E. destruct E as (_ & _ & E).
    apply (ab_len _ _ _ _ _ E1) in E2. injection E as _ <-. rewrite app_length, skipn_length. lia.
Qed.

Lemma long_m c divisor d0 d1 d2 ds : divisor = d0 :: d1 :: d2 :: ds -> forall k suf pre done rest,
  length rest = k -> lenz pre = lenz done -> (length divisor + k <= length suf + 1)%nat -> lenz (pre ++ suf) <= big ->
  ('(_, res) <- for_up k (lenz done) (m_div_long c (lenz divisor - 1) d1 d2 divisor) (pre ++ suf, done ++ rest) ;; Ret res) =
  (q <- div_long c k divisor suf ;; Ret (done ++ q)).
Proof.
  intro ED. induction k as [|k IH]; intros suf pre done rest L1 L2 L3 L4.
  { destruct rest; [|discriminate]. reflexivity. }
  destruct rest as [|r rest]; [discriminate|].
  assert (LD : (3 <= length divisor)%nat) by (rewrite ED; cbn; lia).
  cbn [for_up div_long]. unfold m_div_long at 1. rewrite <- L2.
  rewrite (digit_m c divisor suf pre ltac:(lia) L4 d0 d1 d2 ds ED). rewrite !bind_assoc. apply bind_ext. intros [x suf'] ES.
  apply div_step_len in ES; [|lia]. cbn [bind]. rewrite L2, set_unchecked_app by reflexivity. cbn [bind].
  destruct suf' as [|u suf']; [cbn in ES; lia|]. cbn [tl].
  replace (lenz done + 1) with (lenz (done ++ [x])) by (rewrite lenz_app; reflexivity).
  replace (pre ++ u :: suf') with ((pre ++ [u]) ++ suf') by now rewrite <- app_assoc.
  replace (done ++ x :: rest) with ((done ++ [x]) ++ rest) by now rewrite <- app_assoc.
  rewrite (IH suf' (pre ++ [u])).
  - rewrite !bind_assoc. apply bind_ext. intros q _. cbn [bind]. now rewrite <- app_assoc.
  - cbn in L1. lia.
  - rewrite !lenz_app. change (lenz [u]) with 1. change (lenz [x]) with 1. lia.
  - cbn in ES. lia.
  - unfold lenz in *. rewrite !app_length in *. cbn [length] in *. lia.
Qed.

(** ** division *)
Lemma firstn_zeros n m : 0 <= n <= m -> firstn (Z.to_nat n) (zeros m) = zeros n.
Proof.
  intro H. replace m with (n + (m - n)) by lia. rewrite zeros_app by lia.
  replace (Z.to_nat n) with (length (zeros n)) by (unfold zeros; now rewrite repeat_length). apply firstn_app_len.
Qed.
Lemma skipn_zeros n m : 0 <= n <= m -> skipn (Z.to_nat n) (zeros m) = zeros (m - n).
Proof.
  intro H. replace m with (n + (m - n)) at 1 by lia. rewrite zeros_app by lia.
  replace (Z.to_nat n) with (length (zeros n)) by (unfold zeros; now rewrite repeat_length). apply skipn_app_len.
Qed.
Lemma copy_zeros n ds : lenz ds + 1 <= n -> copy_from_slice (zeros n) 1 (lenz ds) ds = Ret (0 :: ds ++ zeros (n - lenz ds - 1)).
Proof.
  intro H. pose proof (lenz_nonneg ds). unfold copy_from_slice. rewrite lenz_zeros' by lia.
  replace (lenz ds + 1 <? 1) with false by (symmetry; apply Z.ltb_ge; lia).
  replace (n <? lenz ds + 1) with false by (symmetry; apply Z.ltb_ge; lia).
  replace (lenz ds + 1 - 1 =? lenz ds) with true by (symmetry; apply Z.eqb_eq; lia). cbn [orb negb].
  rewrite firstn_zeros, skipn_zeros by lia. replace (n - (lenz ds + 1)) with (n - lenz ds - 1) by lia. reflexivity.
Qed.

Lemma copy_zeros' n m ds : m = lenz ds -> m + 1 <= n -> copy_from_slice (zeros n) 1 m ds = Ret (0 :: ds ++ zeros (n - m - 1)).
Proof. intros ->. apply copy_zeros. Qed.

Lemma m_first_digit c B q w : B <= big -> mrep B q w -> 0 < ndigits w ->
  (l <- (match p_cow q with
         | Borrowed l => Ret l
         | Owned d => n <- u32 c (lenz (words d) - off d) ;; m_slice c d (as_i32 n)
         end) ;; x <- index l 0 ;; Ret (x =? 0)) = (d <- index (digits w) 0 ;; Ret (d =? 0)).
Proof.
  intros LB [R F] N. unfold big in LB. pose proof (rp_cow q w R) as K. pose proof (fit_cow B q F) as FC. unfold ndigits in N.
  assert (G : forall post, index (digits w ++ post) 0 = index (digits w) 0).
  { intro post. destruct (digits w); [cbn in N; lia|reflexivity]. }
  destruct (p_cow q) as [l|d].
  - destruct K as [post ->]. cbn [bind]. now rewrite G.
  - destruct K as [O D]. pose proof (digits_at_len d _ D) as (O' & L').
    destruct D as (pre & post & W & O2).
    assert (E : lenz (words d) - off d = lenz (digits w ++ post)) by (rewrite W, <- O2, !lenz_app; lia).
    pose proof (lenz_nonneg (digits w ++ post)).
    rewrite E, u32_ok by lia. cbn [bind]. rewrite as_i32_ok by lia.
    rewrite (m_slice_ok c d (digits w ++ post)); [|exists pre, []; rewrite app_nil_r; now split|lia]. cbn [bind]. now rewrite G.
Qed.

Definition orel {A B} (R : A -> B -> Prop) (x : option A) (y : option B) : Prop :=
  match x, y with Some a, Some b => R a b | None, None => True | _, _ => False end.

Lemma div_short_len c d1 : forall k us carry q, div_short c k us d1 carry = Ret q -> lenz q = Z.of_nat k.
Proof.
  induction k as [|k IH]; intros us carry q E; cbn [div_short] in E; [injection E as <-; reflexivity|].
  destruct us; [discriminate|]. do 2 (apply bind_ret in E; destruct E as (? & _ & E)). destruct (d1 =? 0); [discriminate|].
  apply bind_ret in E. destruct E as (rest & E1 & E). injection E as <-. apply IH in E1. rewrite lenz_cons. lia.
Qed.
Lemma div_long_len c divisor : forall k us q, div_long c k divisor us = Ret q -> lenz q = Z.of_nat k.
Proof.
  induction k as [|k IH]; intros us q E; cbn [div_long] in E; [injection E as <-; reflexivity|].
  apply bind_ret in E. destruct E as ([x us'] & _ & E).
  apply bind_ret in E. destruct E as (rest & E1 & E). injection E as <-. apply IH in E1. rewrite lenz_cons. lia.
Qed.

Lemma div_common_m c a B p q v w rs round : 0 <= B <= 1000000 -> 0 <= rs <= B -> mrep B p v -> mrep B q w ->
  sim (orel (mrep (8 * B + 100))) (m_div_common c a p q rs round) (div_common c v w rs round).
Proof.
  intros LB LR M1 M2. pose proof M1 as [R1 [A1 A2 A3 A4]]. pose proof M2 as [R2 [B1 B2 B3 B4]].
  unfold m_div_common, div_common, is_nan, m_nan.
  rewrite (rp_sign p v R1), (rp_sign q w R2). apply sim_same. intros _ _. apply sim_same. intros _ _. cbn zeta.
  assert (I0 : (if p_nd q =? 0 then Ret true
                else l <- (match p_cow q with
                           | Borrowed l => Ret l
                           | Owned d => n <- u32 c (lenz (words d) - off d) ;; m_slice c d (as_i32 n)
                           end) ;; x <- index l 0 ;; Ret (x =? 0)) =
               (if ndigits w =? 0 then Ret true else d <- index (digits w) 0 ;; Ret (d =? 0))).
  { rewrite (rp_nd q w R2) in *. destruct (Z.eqb_spec (ndigits w) 0); [reflexivity|].
    apply (m_first_digit c B); [unfold big; lia|exact M2|lia]. }
  rewrite I0. clear I0.
  rewrite (rp_weight p v R1), (rp_weight q w R2), (rp_nd p v R1), (rp_nd q w R2) in *.
  destruct (Z.eqb_spec (ndigits w) 0) as [Z2|Z2]; cbn [bind]; [exact I|].
  apply sim_same. intros is0 _. destruct is0; [exact I|].
  destruct (Z.eqb_spec (ndigits v) 0) as [Z1|Z1].
  { apply (sim_bind (mrep B)); [apply zero_scaled_m; lia|]. intros z1 z2 Mz. cbn [sim orel]. apply (mrep_mono B); [lia|exact Mz]. }
  change DEC_DIGITS with 4.
  set (n1 := ndigits v) in *. set (n2 := ndigits w) in *. set (rw := weight v - weight w).
  assert (RW : - (2 * B) <= rw <= 2 * B) by (unfold rw; lia).
  pose proof (quot4_bound (rs + 4 - 1) ltac:(lia)) as Q. ari.
  set (nd := Z.max (rw + 1 + Z.quot (rs + 4 - 1) 4) 1).
  assert (ND : 1 <= nd <= 3 * B + 5) by (unfold nd; lia).
  assert (EN : (if round then Ret (nd + 1) else Ret nd) = Ret (if round then nd + 1 else nd)) by (destruct round; reflexivity).
  rewrite EN. cbn [bind]. clear EN. set (N := if round then nd + 1 else nd).
  assert (NB : 1 <= N <= 3 * B + 6) by (unfold N; destruct round; lia). ari.
  set (dn := Z.max (N + n2) n1). assert (DN : N + n2 <= dn <= 4 * B + 6 /\ n1 <= dn) by (unfold dn; lia). ari.
  rewrite usize_ok by lia. cbn [bind]. rewrite lenz_zeros' by lia.
  replace (dn + n2 + 2 <? dn + 1) with false by (symmetry; apply Z.ltb_ge; lia). cbn [bind].
  rewrite firstn_zeros, skipn_zeros by lia.
  rewrite (m_digits_ok c B p v) by (try assumption; unfold big; lia). cbn [bind].
  rewrite (copy_zeros' (dn + 1) n1 (digits v) eq_refl) by lia. cbn [bind].
  rewrite (m_digits_ok c B q w) by (try assumption; unfold big; lia). cbn [bind].
  rewrite (copy_zeros' (dn + n2 + 2 - (dn + 1)) n2 (digits w) eq_refl) by lia. cbn [bind].
  replace (dn + n2 + 2 - (dn + 1) - n2 - 1) with 0 by lia. change (zeros 0) with (@nil Z). rewrite app_nil_r.
  replace (dn + 1 - n1 - 1) with (dn - n1) by lia.
  destruct (m_new_ok c a N) as (d & l & E & O & D & L & W & S); [lia|]. rewrite E. cbn [bind]. rewrite S. cbn [bind].
  set (zs := zeros (dn - n1)). assert (LZ : lenz zs = dn - n1) by (apply lenz_zeros'; lia).
  assert (LZ' : Z.of_nat (length zs) = dn - n1) by exact LZ.
  assert (LV : Z.of_nat (length (digits v)) = n1) by reflexivity. assert (LV2 : Z.of_nat (length (digits w)) = n2) by reflexivity.
  set (ML := if n2 =? 1 then _ else _ : outcome (list Z)).
  set (MR := if n2 =? 1 then _ else _ : outcome (list Z)).
  assert (EL : ML = MR /\ forall ds, MR = Ret ds -> lenz ds = N).
  { unfold ML, MR. destruct (Z.eqb_spec n2 1) as [E2|E2].
    - split.
      + apply bind_ext. intros d1 _.
        pose proof (short_m c d1 (Z.to_nat N) (digits v ++ zs) [0] [] l 0) as SM. cbn [app tl] in SM |- *.
        change (lenz (@nil Z)) with 0 in SM. rewrite SM.
        * destruct (div_short _ _ _ _ _); reflexivity.
        * unfold lenz in L. lia.
        * rewrite app_length. lia.
        * reflexivity.
        * rewrite lenz_cons, lenz_app. fold (ndigits v). fold n1. unfold big. lia.
      + intros ds ED. apply bind_ret in ED. destruct ED as (d1 & _ & ED). apply div_short_len in ED. lia.
    - assert (H2 : exists x y ys, digits w = x :: y :: ys).
      { destruct (digits w) as [|x [|y ys]] eqn:Ew; [..|now exists x, y, ys]; unfold n2, ndigits in *; rewrite Ew in *; cbn in *; lia. }
      destruct H2 as (x & y & ys & Ew).
      assert (LO : forall dv us, length dv = Z.to_nat (n2 + 1) -> lenz us = dn + 1 ->
        (divisor1 <- index dv 1 ;; divisor2 <- index dv 2 ;;
         '(_, res) <- for_up (Z.to_nat N) 0 (m_div_long c n2 divisor1 divisor2 dv) (us, l) ;; Ret res) =
        div_long c (Z.to_nat N) dv us).
      { intros dv us Ld Lu. destruct (list3 dv ltac:(lia)) as (d0 & d1 & d2 & dd & Ed). assert (X1 : index dv 1 = Ret d1) by (rewrite Ed; reflexivity). assert (X2 : index dv 2 = Ret d2) by (rewrite Ed; reflexivity).
        rewrite X1, X2. cbn [bind].
        pose proof (long_m c dv d0 d1 d2 dd Ed (Z.to_nat N) us [] [] l) as LM. cbn [app] in LM. change (lenz (@nil Z)) with 0 in LM.
        replace (lenz dv - 1) with n2 in LM by (unfold lenz; lia). rewrite LM.
        - destruct (div_long _ _ _ _); reflexivity.
        - unfold lenz in L. lia.
        - reflexivity.
        - unfold lenz in Lu. lia.
        - unfold big. lia. }
      assert (TOP : index (0 :: digits w) 1 = Ret x) by (rewrite Ew; reflexivity). rewrite TOP. cbn [bind].
      split.
      2: { intros ds ED. apply bind_ret in ED. destruct ED as ([dv us] & _ & ED). apply div_long_len in ED. lia. }
      destruct (x <? HALF_NBASE); cbn [bind].
      2: { apply LO; [cbn [length]; lia|]. rewrite lenz_cons, lenz_app. fold (ndigits v). fold n1. lia. }
      rewrite !bind_assoc. apply bind_ext. intros s _. destruct (s =? 0); [reflexivity|]. rewrite !bind_assoc.
      pose proof (scale_m c (Z.quot NBASE s) [0] (digits w) []) as SW. rewrite app_nil_r in SW. cbn [app] in SW. change (lenz [0]) with 1 in SW.
      replace (Z.to_nat n2) with (length (digits w)) by lia.
      rewrite SW. rewrite !bind_assoc. apply bind_ext. intros [cr vs] EV. apply scale_len in EV. cbn [bind]. rewrite app_nil_r.
      rewrite !bind_assoc. apply bind_ext. intros _ _.
      pose proof (scale_m c (Z.quot NBASE s) [] (0 :: digits v) zs) as SV. cbn [app] in SV. change (lenz (@nil Z)) with 0 in SV.
      replace (Z.to_nat (n1 + 1)) with (length (0 :: digits v)) by (cbn [length]; lia).
      rewrite SV. rewrite !bind_assoc. apply bind_ext. intros [cr2 us] EU. apply scale_len in EU. cbn [bind].
      rewrite ?bind_assoc. apply bind_ext. intros _ _. rewrite ?bind_assoc. apply bind_ext. intros top _.
      rewrite ?bind_assoc. apply bind_ext. intros _ _. cbn [bind]. rewrite lenz_cons in EU. fold (ndigits v) (ndigits w) in EU, EV. fold n1 in EU. fold n2 in EV.
      apply LO; [cbn [length]; unfold lenz in EV; lia|]. rewrite lenz_app. lia. }
  destruct EL as [EL ELN]. rewrite EL. clear EL ML. apply sim_same. intros ds ED. apply ELN in ED. clear ELN MR.
  apply (sim_bind (mrep (4 * B + 40))).
  - assert (MF : mrep (4 * B + 30) (PVar N rw 0 (if sgn_eqb (sign v) (sign w) then SPos else SNeg) (Owned (write_back d ds)))
                   (Var rw 0 (if sgn_eqb (sign v) (sign w) then SPos else SNeg) ds)).
    { apply (fresh_mrep _ d l); auto; lia. }
    apply (sim_weaken (4 * B + 30 + 10)); [lia|]. destruct round; [apply round_m|apply trunc_m]; try exact MF; lia.
  - intros r u Mr. pose proof (strip_m c a (4 * B + 40) r u ltac:(lia) Mr) as ST.
    destruct (m_strip c a r) as [r'| | |]; cbn [sim] in ST; try contradiction. cbn [bind sim orel].
    apply (mrep_mono (2 * (4 * B + 40) + 5)); [lia|exact ST].
Qed.
