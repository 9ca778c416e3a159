(** * MachExpApi: exp at the interface, machine level (MachExp.v) against Transc.v. *)
From Coq Require Import Reals Qreals Lra Lia ZArith QArith Qabs List Bool.
From Verif Require Import Base Var Binary Format Parse Convert Num Flt Transc Data Spec SpecApi SpecRoot SpecLn SpecFloat SpecData SpecMach QDec Digits Arith Strip Round AddSub Signed Codec Make Api1 Api2 Sqrt
  DivFast FltFacts Sci PowApi LnOps LnSqrt LnQR LnRed LnReal LnSeries LnApi LnSig LnStep ExpReal ExpRed ExpSeries ExpSquare ExpAcc ExpFin ExpApi ExpStep DataSim DataBuf DataApi
  Mach MachSim MachAdd MachMul MachDiv MachApi MachText MachConv MachFast MachDivFast MachSqrt MachPow MachPowSim MachPowApi MachLn MachLnSim MachLnTail MachLnApi MachExp MachExpSim.
Import ListNotations.
Open Scope Z_scope.

Lemma clamped_f2i w : let v := if Qle_bool (-2000) w then w else (-2000)%Q in let u := if Qle_bool v 2000 then v else 2000%Q in -2001 <= f2i u <= 2001.
Proof.
  intros v u. assert (H : (-2000 <= u <= 2000)%Q).
  { subst u v. destruct (Qle_bool (-2000) w) eqn:E1.
    - destruct (Qle_bool w 2000) eqn:E2; [apply Qle_bool_iff in E1, E2; now split|split; [discriminate|apply Qle_refl]].
    - change (Qle_bool (-2000) 2000) with true. cbv iota. split; [apply Qle_refl|discriminate]. }
  clearbody u. clear v. destruct H as [H1 H2]. apply Qle_Rle in H1, H2.
  replace (Q2R (-2000)) with (-2000)%R in H1 by (unfold Q2R; cbn; lra). replace (Q2R 2000) with 2000%R in H2 by (unfold Q2R; cbn; lra).
  pose proof (f2i_near_R u ltac:(apply Rabs_le; lra)) as N. assert (N' : (Rabs (IZR (f2i u) - Q2R u) <= 1)%R) by lra. apply Rabs_between in N'.
  split; apply le_IZR; lra.
Qed.

(** the conversion of a valid argument *)
Lemma conv m v : float_sound m -> canon v ->
  exists f, f_of_var m v = Some f /\ ((Rabs (Q2R f - rv v) <= / 1000000000)%R \/ (6000 <= Rabs (Q2R f))%R).
Proof.
  intros FS C. pose proof (cn_st v C) as S. pose proof (cn_scale v C) as Sc.
  destruct (Rlt_le_dec (Rabs (rv v)) 6000) as [L|L].
  - destruct (fs_below m v FS S (proj1 Sc) (canon_mult v C) L) as (f & Ef & F). exists f. split; [exact Ef|]. left. lra.
  - assert (B : (inject_Z 6000 <= Qabs (vval v))%Q) by (apply Rle_Qle; rewrite Q2R_abs, Q2R_Z; exact L).
    destruct (fs_big m FS v 6000 S (proj1 Sc) (canon_mult v C) ltac:(vm_compute; split; discriminate) B) as (f & Ef & F). exists f. split; [exact Ef|]. right.
    apply Qle_Rle in F. rewrite Q2R_Z, Q2R_abs in F. exact F.
Qed.

Definition exp_rel (r : option pvar) (r' : option var) : Prop :=
  orel (mrep (mid + 10)) r r' /\ (forall z, r' = Some z -> fine z /\ sign z <> SNaN).

Lemma exp_common_rel c b m fuel p v f rs : stripped v -> 0 <= dscale v <= 16383 -> mult (vval v) (dscale v) ->
  f_of_var m v = Some f -> (Rabs (Q2R f - rv v) <= / 1000000000)%R \/ (6000 <= Rabs (Q2R f))%R -> 0 <= rs <= 1000 ->
  4000 <= Z.of_nat fuel -> mrep 5000000 p v ->
  sim exp_rel (m_exp_common c b m fuel p rs) (exp_common c m fuel v rs) /\ settled (exp_common c m fuel v rs).
Proof.
  intros S D M Ff HF HR Hf Mp.
  assert (X : exp_common c m fuel v rs = Ret None \/ exists r, exp_common c m fuel v rs = Ret (Some r) /\ fine r /\ sign r <> SNaN).
  { destruct (Rlt_le_dec (Rabs (Q2R f)) 6000) as [L|L].
    - destruct HF as [F|F]; [|lra]. right. destruct (exp_common_spec c m fuel v f rs S D M Ff F L HR Hf) as (r & E & Dr & Nr & Sr & Mr & Wr & _).
      exists r. split; [exact E|]. split; [|exact Nr]. left. split; [exact Dr|]. split; [exact Nr|]. rewrite Sr. split; [exact Mr|lia].
    - left. unfold exp_common. rewrite (nan_ok c v (st_nan _ S)). cbn [bind]. rewrite Ff. cbn [expect bind].
      replace (Qle_bool 6000 (Qabs f)) with true; [reflexivity|]. symmetry. apply Qle_bool_iff, Rle_Qle. rewrite Q2R_abs.
      replace (Q2R 6000) with 6000%R by (unfold Q2R; cbn; lra). exact L. }
  split; [|destruct X as [->|(r & -> & _)]; exact Logic.I].
  unfold exp_rel. apply sim_spec; [now apply (exp_common_m c b m fuel p v f)|].
  intros o E z ->. destruct X as [X|(r & X & F)]; rewrite E in X; apply Ret_inj in X; [discriminate|]. injection X as ->. exact F.
Qed.

Lemma exp_m c b m fuel p v : float_sound m -> 4000 <= Z.of_nat fuel -> canon v -> mrep 40000 p v ->
  sim exp_rel (m_exp c b m fuel p) (exp_var c m fuel v) /\ settled (exp_var c m fuel v).
Proof.
  intros FS Hf C M. pose proof (cn_st v C) as S. pose proof (cn_scale v C) as Sc. destruct (conv m v FS C) as (f & Ef & F).
  unfold m_exp, exp_var, m_nan, is_nan. rewrite (rp_sign p v (proj1 M)). pose proof (nan_ok c v (st_nan v S)) as NV. unfold is_nan in NV. rewrite NV, !bind_ret.
  rewrite (to_f64_m c m 40000 p v) by (lia || exact M || exact S || exact (canon_mult v C)). rewrite Ef. cbn [expect]. rewrite !bind_ret. cbv zeta.
  set (w := fmul f LOG10_E). clearbody w. pose proof (clamped_f2i w) as Hc. cbv zeta in Hc.
  set (k := f2i _) in *. clearbody k. change NUMERIC_MIN_SIG_DIGITS with 16. rewrite i32_ok by lia. rewrite bind_ret. rewrite (rp_dscale p v (proj1 M)).
  fold (clamp_scale (Z.max (16 - k) (dscale v))). set (rs := clamp_scale (Z.max (16 - k) (dscale v))).
  assert (Hrs : 0 <= rs <= 1000) by (unfold rs, clamp_scale; change NUMERIC_MIN_DISPLAY_SCALE with 0; change NUMERIC_MAX_DISPLAY_SCALE with 1000; lia).
  apply (exp_common_rel c b m fuel p v f rs); auto; [exact (canon_mult v C)|exact (mrep_mono 40000 5000000 _ _ ltac:(lia) M)].
Qed.

Lemma opt_m c a r r' : exp_rel r r' -> sim (optrel c) (m_make_opt c a r) (make_result_opt c r') /\ settled (make_result_opt c r').
Proof.
  intros [O F]. destruct r as [p|], r' as [v|]; cbn [orel] in O; try contradiction; cbn [m_make_opt make_result_opt]; [|split; exact Logic.I].
  destruct (F v eq_refl) as [Fn Ns]. split; [|now apply make_settled]. apply (make_m c a (mid + 10)); [unfold mid; lia|exact O|exact Fn].
Qed.

Theorem exp_mach c b m fuel x : float_sound m -> 4000 <= Z.of_nat fuel -> valid (be_varlen c) x ->
  sim (optrel c) (m_num_exp c b m fuel x) (num_exp c m fuel x) /\ settled (num_exp c m fuel x).
Proof.
  intros FS Hf [H|(q & s & H)]; unfold m_num_exp, num_exp.
  { rewrite H, nan_is_nan. cbn [bind]. exact (make_nan c (fun _ => b 0%nat 0%nat)). }
  destruct (stores_elim _ _ _ _ H) as (v & C & -> & _ & _).
  rewrite (num_is_nan_spec c v (canon_storable v C)). cbn [bind].
  rewrite (m_as_var_ok c v C), (as_var_spec c v (canon_storable v C)), !bind_ret.
  destruct (exp_m c b m fuel (borrow v) v FS Hf C (borrow_m v C)) as [P ST].
  destruct (m_exp c b m fuel (borrow v)) as [r| | |], (exp_var c m fuel v) as [r'| | |]; cbn [sim settled] in P, ST; try contradiction; rewrite ?bind_ret.
  - now apply opt_m.
  - split; [exact P|exact Logic.I].
Qed.

Theorem exp_agrees c b m fuel x : float_sound m -> 4000 <= Z.of_nat fuel -> valid (be_varlen c) x ->
  agrees c (m_num_exp c b m fuel x) (num_exp c m fuel x).
Proof. intros FS Hf V. destruct (exp_mach c b m fuel x FS Hf V) as [S T]. now apply agrees_of. Qed.

Lemma agrees_ret c f y : agrees c f (Ret y) -> exists u, f = Ret u /\ shows c u y.
Proof. intro A. destruct f as [u| | |]; cbn [agrees] in A; try contradiction. now exists u. Qed.

Theorem machine_exp_accurate c b m fuel x q s : float_sound m -> stores (be_varlen c) x q s -> (Qabs q < 6000)%Q -> 4000 <= Z.of_nat fuel ->
  (m_num_exp c b m fuel x = Ret None /\ (6000 - / 100000000000 <= Rabs (Q2R q))%R) \/
  (exists u y r s', m_num_exp c b m fuel x = Ret (Some u) /\ shows c (Some u) (Some y) /\ stores (be_varlen c) y r s' /\ Z.min 1000 s <= s' <= 1000 /\
     (Rabs (Q2R r - exp (Q2R q)) <= 504 / 1000 * powerRZ 10 (- s'))%R).
Proof.
  intros FS H Q Hf. assert (V : valid (be_varlen c) x) by (right; eauto). pose proof (exp_agrees c b m fuel x FS Hf V) as A.
  destruct (exp_api c m fuel x q s FS H Q Hf) as [[E K]|(y & r & s' & E & K1 & K2 & K3 & _)]; rewrite E in A; destruct (agrees_ret _ _ _ A) as (u & -> & Su).
  - left. destruct u; [contradiction|]. now split.
  - right. destruct u as [u|]; [|contradiction]. exists u, y, r, s'. auto.
Qed.
Theorem machine_exp_big c b m fuel x q s : float_sound m -> stores (be_varlen c) x q s -> (6000 <= Qabs q)%Q -> 4000 <= Z.of_nat fuel ->
  m_num_exp c b m fuel x = Ret None.
Proof.
  intros FS H Q Hf. assert (V : valid (be_varlen c) x) by (right; eauto). pose proof (exp_agrees c b m fuel x FS Hf V) as A.
  rewrite (exp_api_big c m fuel x q s FS H Q) in A. destruct (agrees_ret _ _ _ A) as (u & -> & Su). destruct u; [contradiction|reflexivity].
Qed.
