(** * MachConv: machine-level integer conversions and text output against those on lists. *)
From Coq Require Import ZArith QArith Qabs List Bool Lia.
From Verif Require Import Base Var Binary Format Parse Convert Num Data Spec SpecApi SpecText SpecData SpecMach QDec Digits Arith Strip Codec Make Api1 Api3 FormatText ConvertApi
  DataSim DataBuf DataApi Mach MachSim MachAdd MachMul MachDiv MachApi MachText.
Import ListNotations.
Open Scope Z_scope.

Lemma unsigned_ok c bits x : 0 <= x < 2 ^ bits -> unsigned c bits x = Ret x.
Proof. intro H. unfold unsigned. rewrite (proj2 (Z.leb_le 0 x)), (proj2 (Z.ltb_lt x _)) by lia. reflexivity. Qed.
Lemma arith_ok c bits x : - 2 ^ (bits - 1) <= x < 2 ^ (bits - 1) -> arith c bits x = Ret x.
Proof. intro H. unfold arith, fits. rewrite (proj2 (Z.leb_le _ _)), (proj2 (Z.ltb_lt _ _)) by lia. reflexivity. Qed.
Lemma wrap_ok bits x : 1 <= bits -> - 2 ^ (bits - 1) <= x < 2 ^ (bits - 1) -> wrap bits x = x.
Proof.
  intros B H. unfold wrap. rewrite Z.mod_small; [lia|].
  replace (2 ^ bits) with (2 * 2 ^ (bits - 1)) by (rewrite <- Z.pow_succ_r by lia; f_equal; lia). lia.
Qed.
Lemma fits_iff bits x : fits bits x = true <-> - 2 ^ (bits - 1) <= x < 2 ^ (bits - 1).
Proof. unfold fits. rewrite andb_true_iff, Z.leb_le, Z.ltb_lt. lia. Qed.

(** ** from integers *)
Lemma next_digit_m c bits val : 0 <= val < 2 ^ bits -> m_next_digit c bits val = Ret (next_digit bits val).
Proof.
  intro H. unfold m_next_digit, next_digit. destruct (bits =? 8); [reflexivity|]. change NBASE with 10000.
  rewrite Z.quot_div_nonneg by lia. pose proof (Z.div_mod val 10000 ltac:(lia)). pose proof (Z.mod_pos_bound val 10000 ltac:(lia)).
  pose proof (Z.div_pos val 10000 ltac:(lia) ltac:(lia)).
  rewrite unsigned_ok by lia. cbn [bind]. rewrite unsigned_ok by lia. reflexivity.
Qed.

Lemma to_digits_m c bits k : forall fuel val acc free ds, (k <= fuel)%nat -> 0 <= val < 2 ^ bits -> lenz free = Z.of_nat k ->
  lenz free + lenz acc <= 1000 -> to_digits bits k val acc = Ret ds ->
  exists free', m_to_digits c bits fuel (lenz free) (lenz acc) val (free ++ acc) = Ret (lenz ds, free' ++ ds) /\
    lenz (free' ++ ds) = lenz (free ++ acc) /\ (exists new, ds = new ++ acc).
Proof.
  induction k as [|k IH]; intros fuel val acc free ds Lf V L B E; [discriminate|].
  destruct fuel as [|fuel]; [lia|]. cbn [to_digits m_to_digits] in *.
  pose proof (lenz_nonneg acc) as Pa. rewrite usize_ok by lia. cbn [bind]. rewrite i32_ok by lia. cbn [bind].
  rewrite next_digit_m by exact V. cbn [bind]. destruct (next_digit bits val) as [digit nv] eqn:En. cbv beta iota.
  assert (X : exists f x, free = f ++ [x]).
  { exists (removelast free), (last free 0). apply app_removelast_last. intro Hn. subst free. rewrite lenz_nil in L. lia. }
  destruct X as (f & x & ->). rewrite lenz_app in L, B. change (lenz [x]) with 1 in L, B.
  rewrite <- app_assoc. cbn [app]. rewrite set_checked_app by (rewrite lenz_app; change (lenz [x]) with 1; lia). cbn [bind].
  destruct (nv =? 0) eqn:Ez.
  - apply Ret_inj in E. subst ds. exists f. rewrite !lenz_app, !lenz_cons. split; [do 2 f_equal; lia|].
    split; [lia|]. exists [digit]. reflexivity.
  - assert (Vn : 0 <= nv < 2 ^ bits).
    { unfold next_digit in En. destruct (bits =? 8); injection En as _ <-; [discriminate|]. change NBASE with 10000.
      rewrite Z.quot_div_nonneg by lia. split; [apply Z.div_pos; lia|]. apply Z.div_lt_upper_bound; lia. }
    destruct (IH fuel nv (digit :: acc) f ds) as (f' & Em & Ll & (new & En')); [lia|exact Vn|lia|rewrite lenz_cons; lia|exact E|].
    exists f'. replace (lenz (f ++ [x]) - 1) with (lenz f) by (rewrite lenz_app; change (lenz [x]) with 1; lia).
    replace (lenz acc + 1) with (lenz (digit :: acc)) by (rewrite lenz_cons; lia). split; [exact Em|].
    split; [rewrite Ll, !lenz_app, !lenz_cons; lia|]. exists (new ++ [digit]). rewrite <- app_assoc. exact En'.
Qed.

Lemma unsigned_to_var_m c a bits val sg v : 0 <= val < 2 ^ bits -> unsigned_to_var bits val sg = Ret v ->
  exists p, m_unsigned_to_var c a bits val sg = Ret p /\ mrep 50 p v.
Proof.
  intros V E. unfold unsigned_to_var in E. apply bind_ret in E. destruct E as (ds & Ed & E). apply Ret_inj in E. subst v.
  unfold m_unsigned_to_var. set (n := Z.of_nat (max_ndigits bits)). assert (Hn : 0 < n <= 10).
  { unfold n, max_ndigits. repeat match goal with |- context [if ?b then _ else _] => destruct b end; lia. }
  cbv zeta. destruct (with_ndigits_ok c a n) as (d & l0 & Ew & Od & Dd & Ll & Lw); [lia|]. rewrite Ew. cbn [bind].
  assert (Sl : m_slice c d n = Ret l0) by (rewrite <- Ll; apply m_slice_ok; [exact Dd|lia]). rewrite Sl. cbn [bind].
  destruct (to_digits_m c bits (max_ndigits bits) (S (max_ndigits bits)) val [] l0 ds) as (f & Em & Lf & (new & En));
    [lia|exact V|exact Ll|rewrite lenz_nil; lia|exact Ed|]. rewrite app_nil_r in Em, Lf. rewrite lenz_nil in Em. rewrite Em. cbn [bind].
  destruct (write_back_at d l0 (f ++ ds) Dd Lf) as (Dw & Ow & Lw'). set (d' := write_back d (f ++ ds)) in *.
  rewrite lenz_app in Lf. pose proof (lenz_nonneg f). pose proof (lenz_nonneg ds).
  rewrite as_u32_ok by lia. rewrite u32_ok by lia. cbn [bind]. rewrite dassert_ok by (apply Z.leb_le; lia). cbn [bind].
  rewrite i32_ok by lia. cbn [bind]. rewrite u32_ok by lia. cbn [bind]. rewrite dassert_ok by (apply Z.leb_le; lia). cbn [bind].
  eexists. split; [reflexivity|]. split.
  - split; cbn [p_nd p_weight p_dscale p_sign p_cow digits weight dscale sign off words]; try reflexivity.
    split; [lia|]. destruct Dw as (pre & post & W & O). exists (pre ++ f), post. cbn [words off].
    split; [rewrite W, <- !app_assoc; reflexivity|].
    assert (Lp : lenz post = 0) by (rewrite W, !lenz_app in Lw'; lia).
    rewrite W, !lenz_app. lia.
  - split; cbn [p_nd p_weight p_dscale p_cow words]; lia.
Qed.

Lemma abs_m c bits val : 1 <= bits -> - 2 ^ (bits - 1) <= val < 2 ^ (bits - 1) ->
  m_abs c bits val = Ret (signed_abs val) /\ 0 <= signed_abs val < 2 ^ bits.
Proof.
  intros B H. unfold m_abs, signed_abs.
  assert (P : 2 ^ bits = 2 * 2 ^ (bits - 1)) by (rewrite <- Z.pow_succ_r by lia; f_equal; lia).
  destruct (Z.leb_spec 0 val) as [P0|P0]; [split; [reflexivity|lia]|].
  rewrite arith_ok by lia. cbn [bind]. rewrite arith_ok by lia. cbn [bind]. rewrite unsigned_ok by lia. split; [reflexivity|lia].
Qed.

Lemma zero_m : mrep 50 m_zero zero_var.
Proof. split; [constructor; cbn; auto; now exists []|]. split; cbn; lia. Qed.

Lemma int_fine v k : Forall dig (digits v) -> sign v <> SNaN -> dscale v = 0 -> (vval v == inject_Z k)%Q -> fine v.
Proof.
  intros D N S V. left. split; [exact D|]. split; [exact N|]. rewrite S. split; [|lia].
  apply (mult_comp (inject_Z k)); [now symmetry|apply mult_Z; lia].
Qed.

Lemma width_pos bits : int_width bits -> 8 <= bits.
Proof. unfold int_width. lia. Qed.

Lemma from_signed_m c a bits val : int_width bits -> - 2 ^ (bits - 1) <= val < 2 ^ (bits - 1) ->
  sim (bufrel c) (m_num_from_signed c a bits val) (num_from_signed c bits val).
Proof.
  intros W H. destruct (from_signed_var bits val W H) as (v & E & R1 & R2 & R3 & R4 & R5). pose proof (width_pos bits W).
  unfold m_num_from_signed, num_from_signed. rewrite E. cbn [bind].
  assert (X : exists p, m_from_signed c (a 0%nat) bits val = Ret p /\ mrep 50 p v).
  { unfold m_from_signed, from_signed in *. destruct (val =? 0); [apply Ret_inj in E; subst v; exists m_zero; split; [reflexivity|exact zero_m]|].
    destruct (abs_m c bits val ltac:(lia) H) as (Ea & Ba). rewrite Ea. cbn [bind]. now apply unsigned_to_var_m. }
  destruct X as (p & Ep & M). rewrite Ep. cbn [bind]. apply (make_no_m c _ 50); [lia|exact M|exact (int_fine v val R1 R2 R3 R5)|exact R4|lia].
Qed.
Lemma from_unsigned_m c a bits val : int_width bits -> 0 <= val < 2 ^ bits ->
  sim (bufrel c) (m_num_from_unsigned c a bits val) (num_from_unsigned c bits val).
Proof.
  intros W H. destruct (from_unsigned_var bits val W H) as (v & E & R1 & R2 & R3 & R4 & R5). pose proof (width_pos bits W).
  unfold m_num_from_unsigned, num_from_unsigned. rewrite E. cbn [bind].
  assert (X : exists p, m_from_unsigned c (a 0%nat) bits val = Ret p /\ mrep 50 p v).
  { unfold m_from_unsigned, from_unsigned in *. destruct (val =? 0); [apply Ret_inj in E; subst v; exists m_zero; split; [reflexivity|exact zero_m]|].
    now apply unsigned_to_var_m. }
  destruct X as (p & Ep & M). rewrite Ep. cbn [bind]. apply (make_no_m c _ 50); [lia|exact M|exact (int_fine v val R1 R2 R3 R5)|exact R4|lia].
Qed.

(** ** to integers *)
Lemma signed_loop_m c bits ds k : 16 <= bits -> Forall dig ds -> forall i val, 0 <= i ->
  fits bits val = true ->
  m_into_signed_loop c bits k i (lenz ds) ds val = into_signed_loop bits k i ds val /\
  (forall r, into_signed_loop bits k i ds val = Ret (inl r) -> fits bits r = true).
Proof.
  intros B D. pose proof (pow15 bits B) as P15. induction k as [|k IH]; intros i val Hi F; cbn [m_into_signed_loop into_signed_loop].
  - split; [reflexivity|]. intros r E. apply Ret_inj in E. injection E as <-. exact F.
  - rewrite dassert_ok by (apply fits_iff; change NBASE with 10000; lia). cbn [bind].
    rewrite (wrap_ok bits NBASE) by (change NBASE with 10000; lia).
    unfold overflowing_signed, fits_signed. destruct (fits bits (val * NBASE)) eqn:Fm; cbn [negb].
    2:{ split; [reflexivity|]. discriminate. }
    rewrite wrap_ok by (try lia; now apply fits_iff).
    destruct (Z.ltb_spec i (lenz ds)) as [Li|Li].
    + rewrite (doz_index ds i) by lia. cbn [bind]. pose proof (doz_dig ds i D) as Dz. unfold dig in Dz.
      rewrite dassert_ok by (apply fits_iff; lia). cbn [bind]. rewrite (wrap_ok bits (digit_or_zero ds i)) by lia.
      destruct (fits bits (val * NBASE - digit_or_zero ds i)) eqn:Fs; cbn [negb].
      2:{ split; [reflexivity|]. discriminate. }
      rewrite wrap_ok by (try lia; now apply fits_iff). apply IH; [lia|exact Fs].
    + apply IH; [lia|exact Fm].
Qed.
Lemma unsigned_loop_m c bits ds k : 16 <= bits -> Forall dig ds -> forall i val, 0 <= i -> 0 <= val < 2 ^ bits ->
  m_into_unsigned_loop c bits k i (lenz ds) ds val = into_unsigned_loop bits k i ds val.
Proof.
  intros B D. assert (P16 : 65536 <= 2 ^ bits) by (change 65536 with (2 ^ 16); apply Z.pow_le_mono_r; lia).
  induction k as [|k IH]; intros i val Hi F; cbn [m_into_unsigned_loop into_unsigned_loop]; [reflexivity|].
  rewrite (Z.mod_small NBASE) by (change NBASE with 10000; lia).
  unfold overflowing_unsigned, fits_unsigned. destruct ((0 <=? val * NBASE) && (val * NBASE <? 2 ^ bits)) eqn:Fm; cbn [negb]; [|reflexivity].
  apply andb_true_iff in Fm. rewrite Z.leb_le, Z.ltb_lt in Fm. rewrite Z.mod_small by lia.
  destruct (Z.ltb_spec i (lenz ds)) as [Li|Li].
  - rewrite (doz_index ds i) by lia. cbn [bind]. pose proof (doz_dig ds i D) as Dz. unfold dig in Dz.
    rewrite (Z.mod_small (digit_or_zero ds i)) by lia.
    destruct ((0 <=? val * NBASE + digit_or_zero ds i) && (val * NBASE + digit_or_zero ds i <? 2 ^ bits)) eqn:Fs; cbn [negb]; [|reflexivity].
    apply andb_true_iff in Fs. rewrite Z.leb_le, Z.ltb_lt in Fs. rewrite Z.mod_small by lia. apply IH; lia.
  - apply IH; lia.
Qed.

(** the rounded and stripped operand *)
Lemma int_operand c (a : nat -> nat -> Z) v : canon v -> exists p q r, mrep 90000 p (strip r) /\ round_common c v 0 = Ret r /\
  m_round_common c (a 0%nat) (borrow v) 0 = Ret q /\ m_strip c (a 1%nat) q = Ret p /\ stripped (strip r).
Proof.
  intro C. destruct (rounded_strip c v (canon_dig v C) (canon_nan v C)) as (r & E & S & _).
  pose proof (round_m c (a 0%nat) 40000 (borrow v) v 0 ltac:(lia) ltac:(lia) (borrow_m v C)) as R. rewrite E in R.
  destruct (m_round_common c (a 0%nat) (borrow v) 0) as [q| | |] eqn:Eq; try contradiction. cbn [sim] in R.
  pose proof (strip_m c (a 1%nat) (40000 + 10) q r ltac:(lia) R) as T. 
  destruct (m_strip c (a 1%nat) q) as [p| | |] eqn:Ep; try contradiction. cbn [sim] in T.
  exists p, q, r. split; [apply (mrep_mono (2 * (40000 + 10) + 5)); [lia|exact T]|]. repeat (split; [assumption || reflexivity|]). exact S.
Qed.

Lemma borrow_nan v : canon v -> m_nan (borrow v) = false /\ is_nan v = false.
Proof. intro C. pose proof (canon_nan v C) as N. unfold m_nan, is_nan, borrow. cbn [p_sign]. destruct (sign v); [auto|auto|congruence]. Qed.

Lemma into_signed_m c a bits v : 16 <= bits -> canon v -> m_into_signed c a bits (borrow v) = into_signed c bits v.
Proof.
  intros B C. unfold m_into_signed, into_signed. apply bind_ext. intros _ _.
  destruct (borrow_nan v C) as (-> & ->). destruct (int_operand c a v C) as (p & q & r & M & Er & Eq & Ep & S). rewrite Er, Eq. cbn [bind].
  rewrite Ep. cbn [bind]. set (s := strip r) in *. pose proof (proj1 M) as R.
  rewrite (rp_nd p s R), (rp_weight p s R). unfold m_neg, is_negative. rewrite (rp_sign p s R).
  destruct (ndigits s =? 0) eqn:Z0; [reflexivity|]. apply Z.eqb_neq in Z0. apply bind_ext. intros _ _.
  pose proof (fit_weight _ p (proj2 M)) as Fw. rewrite (rp_weight p s R) in Fw. rewrite i32_ok by lia. cbn [bind].
  apply bind_ext. intros _ _. rewrite (m_digits_ok c 90000 p s) by (try assumption; unfold big; lia). cbn [bind].
  pose proof (st_digits s S) as Ds. assert (Ne : digits s <> []) by (intro E; apply Z0; unfold ndigits; now rewrite E).
  destruct (first_index (digits s) Ne Ds) as (d0 & Ei & Dd & _). rewrite Ei. cbn [bind]. unfold dig in Dd.
  pose proof (pow15 bits B) as P15. apply bind_ext. intros _ _. rewrite wrap_ok by lia. rewrite arith_ok by lia. cbn [bind].
  destruct (signed_loop_m c bits (digits s) (Z.to_nat (weight s)) B Ds 1 (- d0) ltac:(lia)) as (El & Fl); [apply fits_iff; lia|].
  unfold ndigits. rewrite El. destruct (into_signed_loop bits (Z.to_nat (weight s)) 1 (digits s) (- d0)) as [[val|e]| | |] eqn:Eo; cbn [bind]; try reflexivity.
  specialize (Fl val eq_refl). apply fits_iff in Fl.
  destruct (sgn_eqb (sign s) SNeg); cbn [negb]; [reflexivity|]. destruct (Z.eqb_spec val (- 2 ^ (bits - 1))) as [Q|Q]; [reflexivity|].
  rewrite arith_ok by lia. reflexivity.
Qed.
Lemma into_unsigned_m c a bits v : 16 <= bits -> canon v -> m_into_unsigned c a bits (borrow v) = into_unsigned c bits v.
Proof.
  intros B C. unfold m_into_unsigned, into_unsigned. apply bind_ext. intros _ _.
  destruct (borrow_nan v C) as (-> & ->). destruct (int_operand c a v C) as (p & q & r & M & Er & Eq & Ep & S). rewrite Er, Eq. cbn [bind].
  rewrite Ep. cbn [bind]. set (s := strip r) in *. pose proof (proj1 M) as R.
  rewrite (rp_nd p s R), (rp_weight p s R). unfold m_neg, is_negative. rewrite (rp_sign p s R).
  destruct (ndigits s =? 0) eqn:Z0; [reflexivity|]. apply Z.eqb_neq in Z0.
  destruct (sgn_eqb (sign s) SNeg); [reflexivity|]. apply bind_ext. intros _ _.
  pose proof (fit_weight _ p (proj2 M)) as Fw. rewrite (rp_weight p s R) in Fw. rewrite i32_ok by lia. cbn [bind].
  apply bind_ext. intros _ _. rewrite (m_digits_ok c 90000 p s) by (try assumption; unfold big; lia). cbn [bind].
  pose proof (st_digits s S) as Ds. assert (Ne : digits s <> []) by (intro E; apply Z0; unfold ndigits; now rewrite E).
  destruct (first_index (digits s) Ne Ds) as (d0 & Ei & Dd & _). rewrite Ei. cbn [bind]. unfold dig in Dd.
  assert (P16 : 65536 <= 2 ^ bits) by (change 65536 with (2 ^ 16); apply Z.pow_le_mono_r; lia).
  rewrite Z.mod_small by lia. unfold ndigits. apply unsigned_loop_m; auto; lia.
Qed.

Lemma nan_as_var_m c x : stores_nan (be_varlen c) x -> m_as_var c x = Ret (PVar 0 0 0 SNaN (Borrowed [])) /\ as_var c x = Ret nan_var.
Proof.
  intro H. rewrite H. assert (E : as_var c (nan_layout (be_varlen c)) = Ret nan_var) by apply nan_as_var.
  split; [|exact E]. unfold m_as_var. rewrite E. cbn [bind]. rewrite dassert_ok by reflexivity. reflexivity.
Qed.

Lemma to_signed_m c a bits x : int_width bits -> valid (be_varlen c) x -> m_num_to_signed c a bits x = num_to_signed c bits x.
Proof.
  intros W [H|(q & s & H)]; unfold m_num_to_signed, num_to_signed.
  - destruct (nan_as_var_m c x H) as (-> & ->). cbn [bind]. unfold m_to_signed, var_to_signed, m_into_signed, into_signed.
    destruct (Z.eqb_spec bits 8) as [->|Nb]; rewrite !dassert_ok by (apply Z.leb_le; unfold int_width in W; lia); reflexivity.
  - destruct (stores_elim _ _ _ _ H) as (v & C & -> & _ & _).
    rewrite (m_as_var_ok c v C), (as_var_spec c v (canon_storable v C)). cbn [bind]. unfold m_to_signed, var_to_signed.
    destruct (Z.eqb_spec bits 8) as [->|Nb].
    + rewrite into_signed_m by (auto; lia). apply bind_ext. intros [k|e] _; [|reflexivity].
      destruct (Z.ltb_spec 127 k); [reflexivity|]. destruct (Z.ltb_spec k (-128)); [reflexivity|]. cbn [orb].
      rewrite wrap_ok by (change (2 ^ (8 - 1)) with 128; lia). reflexivity.
    + apply into_signed_m; [unfold int_width in W; lia|exact C].
Qed.
Lemma to_unsigned_m c a bits x : int_width bits -> valid (be_varlen c) x -> m_num_to_unsigned c a bits x = num_to_unsigned c bits x.
Proof.
  intros W [H|(q & s & H)]; unfold m_num_to_unsigned, num_to_unsigned.
  - destruct (nan_as_var_m c x H) as (-> & ->). cbn [bind]. unfold m_to_unsigned, var_to_unsigned, m_into_unsigned, into_unsigned.
    destruct (Z.eqb_spec bits 8) as [->|Nb]; rewrite !dassert_ok by (apply Z.leb_le; unfold int_width in W; lia); reflexivity.
  - destruct (stores_elim _ _ _ _ H) as (v & C & -> & _ & _).
    rewrite (m_as_var_ok c v C), (as_var_spec c v (canon_storable v C)). cbn [bind]. unfold m_to_unsigned, var_to_unsigned.
    destruct (Z.eqb_spec bits 8) as [->|Nb].
    + rewrite into_unsigned_m by (auto; lia). rewrite into_unsigned_spec by (auto using canon_dig, canon_nan; lia). cbn [bind].
      destruct (in_unsigned 16 (round_int (vval v))) eqn:I; [|reflexivity]. unfold in_unsigned in I. apply andb_true_iff in I.
      rewrite Z.leb_le in I. destruct (Z.ltb_spec 255 (round_int (vval v))); [reflexivity|].
      rewrite Z.mod_small by (change (2 ^ 8) with 256; lia). reflexivity.
    + apply into_unsigned_m; [unfold int_width in W; lia|exact C].
Qed.

(** ** text *)
Lemma doz_if ds d : 0 <= d -> (if d <? lenz ds then index ds d else Ret 0) = Ret (digit_or_zero ds d).
Proof.
  intro H. destruct (Z.ltb_spec d (lenz ds)) as [L|L]; [apply doz_index; lia|]. now rewrite doz_out by lia.
Qed.
Lemma doz_if2 ds d : (if (0 <=? d) && (d <? lenz ds) then index ds d else Ret 0) = Ret (digit_or_zero ds d).
Proof.
  destruct (Z.leb_spec 0 d) as [L|L]; cbn [andb]; [now apply doz_if|]. unfold digit_or_zero.
  rewrite (proj2 (Z.leb_gt 0 d)) by lia. reflexivity.
Qed.
Lemma write_int_m c ds k : forall d, 0 <= d -> m_write_int c k d (lenz ds) ds = write_int c k d ds.
Proof.
  induction k as [|k IH]; intros d H; cbn [m_write_int write_int]; [reflexivity|]. rewrite doz_if by exact H. cbn [bind].
  apply bind_ext. intros _ _. rewrite IH by lia. reflexivity.
Qed.
Lemma write_frac_m c ds k : forall scale d dsc, 0 <= scale -> scale + 4 * Z.of_nat k <= big -> - big <= d -> d + Z.of_nat k <= big ->
  scale + 4 * Z.of_nat k <= dsc + 3 ->
  m_write_frac c k scale d dsc (lenz ds) ds = Ret (write_frac k scale d dsc ds).
Proof.
  unfold big. induction k as [|k IH]; intros scale d dsc H1 H2 H3 H4 H5; cbn [m_write_frac write_frac]; [reflexivity|].
  rewrite doz_if2. cbn [bind]. change DEC_DIGITS with 4. rewrite i32_ok by lia. cbn [bind].
  destruct (Z.leb_spec (scale + 4) dsc) as [L|L].
  - cbn [bind]. rewrite i32_ok by lia. cbn [bind]. rewrite IH by lia. reflexivity.
  - rewrite i32_ok by lia. cbn [bind]. rewrite usize_ok by lia. cbn [bind]. rewrite i32_ok by lia. cbn [bind]. rewrite IH by lia. reflexivity.
Qed.
Lemma write_m c B p v : 0 <= B <= 100000000 -> mrep B p v -> m_write c p = write c v.
Proof.
  intros LB M. pose proof (proj1 M) as R. destruct (proj2 M) as [_ F2 F3 _].
  unfold m_write, write, m_nan, is_nan, m_neg. rewrite (rp_nd p v R), (rp_sign p v R), (rp_weight p v R), (rp_dscale p v R) in *.
  destruct (sgn_eqb (sign v) SNaN); [reflexivity|]. rewrite (m_digits_ok c B p v) by (try assumption; unfold big; lia). cbn [bind].
  unfold ndigits. rewrite dassert_ok by apply Z.eqb_refl. cbn [bind]. rewrite write_int_m by lia.
  rewrite i32_ok by lia. cbn [bind]. apply bind_ext. intros ip _.
  destruct (Z.ltb_spec 0 (dscale v)) as [L|L]; [|reflexivity]. rewrite write_frac_m.
  - reflexivity.
  - lia.
  - rewrite Z2Nat.id by (rewrite Z.quot_div_nonneg by lia; apply Z.div_pos; lia).
    rewrite Z.quot_div_nonneg by lia. unfold big. pose proof (Z.div_mod (dscale v + 3) 4 ltac:(lia)). pose proof (Z.mod_pos_bound (dscale v + 3) 4 ltac:(lia)). lia.
  - unfold big. lia.
  - rewrite Z2Nat.id by (rewrite Z.quot_div_nonneg by lia; apply Z.div_pos; lia).
    rewrite Z.quot_div_nonneg by lia. unfold big. pose proof (Z.div_mod (dscale v + 3) 4 ltac:(lia)). pose proof (Z.mod_pos_bound (dscale v + 3) 4 ltac:(lia)). lia.
  - rewrite Z2Nat.id by (rewrite Z.quot_div_nonneg by lia; apply Z.div_pos; lia).
    rewrite Z.quot_div_nonneg by lia. pose proof (Z.div_mod (dscale v + 3) 4 ltac:(lia)). pose proof (Z.mod_pos_bound (dscale v + 3) 4 ltac:(lia)). lia.
Qed.
Lemma display_m c x : valid (be_varlen c) x -> m_num_display c x = num_display c x.
Proof.
  intros [H|(q & s & H)]; unfold m_num_display, num_display.
  - destruct (nan_as_var_m c x H) as (-> & ->). reflexivity.
  - destruct (stores_elim _ _ _ _ H) as (v & C & -> & _ & _).
    rewrite (m_as_var_ok c v C), (as_var_spec c v (canon_storable v C)). cbn [bind].
    apply (write_m c 40000); [lia|now apply borrow_m].
Qed.

(** the scale of the scientific notation *)
Lemma count_zeros_m c k : forall val n z, 0 <= n <= 100 -> 0 <= z <= 100 -> Z.of_nat k <= 100 ->
  m_count_zeros c k val n z = Ret (count_zeros_loop k val n z) /\
  0 <= fst (count_zeros_loop k val n z) <= 200 /\ 0 <= snd (count_zeros_loop k val n z) <= 200.
Proof.
  assert (G : forall k val n z, 0 <= n -> 0 <= z -> n + Z.of_nat k <= 200 -> z + Z.of_nat k <= 200 ->
    m_count_zeros c k val n z = Ret (count_zeros_loop k val n z) /\
    0 <= fst (count_zeros_loop k val n z) <= 200 /\ 0 <= snd (count_zeros_loop k val n z) <= 200).
  { clear k. induction k as [|k IH]; intros val n z N Z K1 K2; cbn [m_count_zeros count_zeros_loop]; [cbn; split; [reflexivity|lia]|].
    destruct ((Z.rem val 10 =? 0) && (n =? 0)); rewrite i32_ok by lia; cbn [bind]; cbv zeta iota beta;
      (destruct (Z.quot val 10 =? 0); [cbn [fst snd]; split; [reflexivity|lia]|apply IH; lia]). }
  intros val n z N Z K. apply G; lia.
Qed.
Lemma find_nz_bound ds : forall i0 i d, find_nz ds i0 = Some (i, d) -> i0 <= i < i0 + lenz ds /\ nth_error ds (Z.to_nat (i - i0)) = Some d /\ d <> 0.
Proof.
  induction ds as [|x t IH]; intros i0 i d H; cbn [find_nz] in H; [discriminate|]. rewrite lenz_cons. pose proof (lenz_nonneg t).
  destruct (Z.eqb_spec x 0) as [->|N].
  - destruct (IH (i0 + 1) i d H) as (H1 & H2 & H3). split; [lia|]. split; [|exact H3].
    replace (Z.to_nat (i - i0)) with (S (Z.to_nat (i - (i0 + 1)))) by lia. exact H2.
  - injection H as <- <-. split; [lia|]. rewrite Z.sub_diag. split; [reflexivity|exact N].
Qed.
Lemma find_nz_first ds : forall i0 i d k e, find_nz ds i0 = Some (i, d) -> nth_error ds k = Some e -> e <> 0 -> i - i0 <= Z.of_nat k.
Proof.
  induction ds as [|x t IH]; intros i0 i d k e H K N; cbn [find_nz] in H; [discriminate|].
  destruct (Z.eqb_spec x 0) as [->|Nx].
  - destruct k as [|k]; [cbn in K; congruence|]. specialize (IH (i0 + 1) i d k e H K N). lia.
  - injection H as <- <-. lia.
Qed.
Lemma rfind_nz_bound ds ri d : rfind_nz ds = Some (ri, d) -> 0 <= ri < lenz ds /\ nth_error ds (Z.to_nat ri) = Some d /\ d <> 0.
Proof.
  unfold rfind_nz. destruct (find_nz (rev ds) 0) as [[i x]|] eqn:E; [|discriminate]. intro H. injection H as <- <-.
  destruct (find_nz_bound _ _ _ _ E) as (B & K & N). unfold lenz in *. rewrite rev_length in B. split; [lia|]. split; [|exact N].
  rewrite Z.sub_0_r in K. apply nth_error_nth with (d := 0) in K. rewrite rev_nth in K by lia.
  rewrite nth_error_nth' with (d := 0) by lia. f_equal. rewrite <- K. f_equal. lia.
Qed.

Lemma select_sci_m c B p v : 0 <= B <= 100000000 -> mrep B p v -> m_select_sci_scale c p = select_sci_scale c v.
Proof.
  intros LB M. unfold m_select_sci_scale, select_sci_scale. rewrite (m_digits_ok c B p v) by (try assumption; unfold big; lia). cbn [bind].
  pose proof (fit_nd B p (proj2 M)) as Fn. rewrite (rp_nd p v (proj1 M)) in Fn. unfold ndigits in Fn.
  destruct (find_nz (digits v) 0) as [[i x]|] eqn:E1; [|reflexivity]. destruct (rfind_nz (digits v)) as [[ri y]|] eqn:E2; [|reflexivity].
  destruct (find_nz_bound _ _ _ _ E1) as (B1 & _ & _). destruct (rfind_nz_bound _ _ _ E2) as (B2 & K2 & N2).
  pose proof (find_nz_first _ _ _ _ _ _ E1 K2 N2) as Le.
  apply bind_ext. intros _ _.
  destruct (count_zeros_m c 4 x 0 0 ltac:(lia) ltac:(lia) ltac:(lia)) as (Cx & Bx1 & Bx2).
  destruct (count_zeros_m c 4 y 0 0 ltac:(lia) ltac:(lia) ltac:(lia)) as (Cy & By1 & By2).
  unfold count_zeros. rewrite Cx, Cy. cbn [bind]. destruct (count_zeros_loop 4 x 0 0) as [n z]. destruct (count_zeros_loop 4 y 0 0) as [n' z'].
  cbn [fst snd] in *. destruct (Z.eqb_spec i ri) as [Q|Q]; [rewrite i32_ok by lia; reflexivity|].
  change DEC_DIGITS with 4. rewrite (i32_ok c (n + z)) by lia. cbn [bind]. rewrite (i32_ok c (4 - z')) by lia. cbn [bind].
  rewrite usize_ok by lia. cbn [bind]. rewrite usize_ok by lia. cbn [bind]. rewrite as_i32_ok by lia.
  rewrite i32_ok by lia. cbn [bind]. rewrite i32_ok by lia. cbn [bind]. rewrite i32_ok by lia. cbn [bind]. rewrite i32_ok by lia. try (f_equal; lia).
Qed.

(** ** the statements of the property *)
Lemma conv_agrees c a bits k : int_width bits ->
  (- 2 ^ (bits - 1) <= k < 2 ^ (bits - 1) ->
     exists b x, m_num_from_signed c a bits k = Ret b /\ num_from_signed c bits k = Ret x /\ shows c (Some b) (Some x)) /\
  (0 <= k < 2 ^ bits ->
     exists b x, m_num_from_unsigned c a bits k = Ret b /\ num_from_unsigned c bits k = Ret x /\ shows c (Some b) (Some x)).
Proof.
  intro W. split; intro H.
  - destruct (num_from_signed_spec c bits k W H) as (x & E & _). pose proof (from_signed_m c a bits k W H) as S. rewrite E in S.
    destruct (m_num_from_signed c a bits k) as [b| | |]; try contradiction. exists b, x. repeat split; auto. exact (bufrel_bytes _ _ _ S).
  - destruct (num_from_unsigned_spec c bits k W H) as (x & E & _). pose proof (from_unsigned_m c a bits k W H) as S. rewrite E in S.
    destruct (m_num_from_unsigned c a bits k) as [b| | |]; try contradiction. exists b, x. repeat split; auto. exact (bufrel_bytes _ _ _ S).
Qed.
Lemma read_agrees c a bits x : valid (be_varlen c) x ->
  m_num_display c x = num_display c x /\
  (int_width bits -> m_num_to_signed c a bits x = num_to_signed c bits x /\ m_num_to_unsigned c a bits x = num_to_unsigned c bits x).
Proof. intro V. split; [now apply display_m|]. intro W. split; [now apply to_signed_m|now apply to_unsigned_m]. Qed.
