(** * FloatSound: what exp and fractional powers assume of the conversion to f64 follows from a correct strtod. *)
From Coq Require Import ZArith QArith Qabs Qpower Lia Lqa Bool List.
From Verif Require Import Base Var Binary Format Parse Convert Spec SpecApi SpecText SpecLibm QDec Digits Strip Make Codec Text ParseApi Api3 FormatText FormatApi ConvertApi SpecDouble SpecFloat Transc Flt Float FloatGrid FloatF32 FloatText FloatApi FloatTrip.
Import ListNotations.
Open Scope Z_scope.

(** var.rs 1935, 2047, 2563: [TryFrom::try_from(&NumericVar)] for f64 inside exp and pow. An infinity is
    modelled by a number of its sign from 2^1024 on: all that the code asks of the result is whether it
    is above 6000 or 2000 * 3.01 in magnitude. *)
Definition float_of (c : cfg) (pf : platform) (v : var) : option Q :=
  match var_to_f64 c pf v with
  | Ret (inl (FNum q)) => Some q
  | Ret (inl (FInf n)) => Some (if n then - (2 ^ 1024) else 2 ^ 1024)%Q
  | _ => None
  end.

Lemma var_to_f64_wide c pf v : strtod_sound (p_strtod pf) -> stripped v -> 0 <= dscale v -> expressible (vval v) (dscale v) ->
  exists d, var_to_f64 c pf v = Ret (inl d) /\ rounds_to binary64 (vval v) d.
Proof.
  intros SS S D X. unfold var_to_f64. assert (N : is_nan v = false).
  { pose proof (st_nan v S). unfold is_nan. destruct (sign v); [reflexivity|reflexivity|congruence]. }
  rewrite N. destruct (write_wide c v S D X) as (t & -> & P). cbn [bind].
  destruct (SS t _ _ P) as (d & -> & R). exists d. split; [reflexivity|exact R].
Qed.

Lemma int_grid n : Z.abs n <= 2 ^ 53 -> on_grid binary64 (inject_Z n).
Proof.
  intro H. destruct (Z_lt_le_dec (Z.abs n) (2 ^ 53)) as [L|L].
  - exists n, 0. cbn [f_prec f_emin binary64]. split; [exact L|]. split; [lia|]. change (2 ^ 0)%Q with 1%Q. ring.
  - exists (Z.sgn n * 2 ^ 52), 1. cbn [f_prec f_emin binary64]. split; [|split; [lia|]].
    + change (2 ^ 52) with 4503599627370496. change (2 ^ 53) with 9007199254740992. lia.
    + change (2 ^ 1)%Q with (inject_Z 2). rewrite <- inject_Z_mult. replace (Z.sgn n * 2 ^ 52 * 2) with n; [reflexivity|].
      change (2 ^ 53) with 9007199254740992 in *. change (2 ^ 52) with 4503599627370496. lia.
Qed.

(** nearest values on the other side of a grid point stay there *)
Lemma nearest_mono F q f a : on_grid F a -> nearest F q f -> (a <= q)%Q -> (a <= f)%Q.
Proof.
  intros G [_ N] H. specialize (N a G). destruct (Qlt_le_dec f a) as [L|L]; [|exact L]. exfalso.
  rewrite (Qabs_neg (f - q)), (Qabs_neg (a - q)) in N by lra. lra.
Qed.
Lemma nearest_mono' F q f a : on_grid F a -> nearest F q f -> (q <= a)%Q -> (f <= a)%Q.
Proof.
  intros G [_ N] H. specialize (N a G). destruct (Qlt_le_dec a f) as [L|L]; [|exact L]. exfalso.
  rewrite (Qabs_pos (f - q)), (Qabs_pos (a - q)) in N by lra. lra.
Qed.

Lemma big_1024 : (inject_Z (2 ^ 53) <= 2 ^ 1024)%Q.
Proof. change (2 ^ 1024)%Q with (p2 1024). rewrite p2_Z by lia. apply inj_le. vm_compute. discriminate. Qed.

Lemma inf_below (q f : Q) : nearest binary64 q f -> (p2 1024 <= Qabs f)%Q -> (Qabs q <= p10 300)%Q -> False.
Proof.
  intros N H L.
  assert (B : (p10 300 <= p2 1023)%Q) by (rewrite p2_Z, p10_Z by lia; apply inj_le; vm_compute; discriminate).
  assert (G : on_grid binary64 (p2 1023)).
  { exists 1, 1023. cbn [f_prec f_emin binary64]. split; [reflexivity|]. split; [lia|]. change (inject_Z 1) with 1%Q. change (2 ^ 1023)%Q with (p2 1023). ring. }
  assert (G' : on_grid binary64 (- p2 1023)).
  { exists (-1), 1023. cbn [f_prec f_emin binary64]. split; [reflexivity|]. split; [lia|]. change (inject_Z (-1)) with (- (1))%Q. change (2 ^ 1023)%Q with (p2 1023). ring. }
  pose proof (p2_lt 1023 1024 ltac:(lia)) as P. revert N H L B G G' P. generalize (p2 1023), (p2 1024), (p10 300). clear.
  intros a b t N H L B G G' P. apply Qabs_Qle_condition in L.
  pose proof (nearest_mono' _ _ _ _ G N ltac:(lra)). pose proof (nearest_mono _ _ _ _ G' N ltac:(lra)).
  assert (Qabs f <= a)%Q by (apply Qabs_Qle_condition; lra). lra.
Qed.

Lemma err_300 (e q : Q) : (Qabs e <= Qabs q * p2 (-53) \/ Qabs e <= p2 (-1075))%Q -> (Qabs e <= Qabs q * p10 (-15) + p10 (-300))%Q.
Proof.
  assert (A : (p2 (-53) <= p10 (-15))%Q) by (unfold Qle; vm_compute; discriminate).
  assert (B : (p2 (-1075) <= p10 (-300))%Q).
  { apply Qlt_le_weak, (inv_lt (p10 300) (p2 1075)); [apply p10_pos|apply p2_pos| |exact (p10_opp 300)|exact (p2_opp 1075)].
    rewrite p2_Z, p10_Z by lia. apply inj_lt. reflexivity. }
  pose proof (p10_pos (-15)) as P1. pose proof (p10_pos (-300)) as P2. revert A B P1 P2.
  generalize (p2 (-53)), (p2 (-1075)), (p10 (-15)), (p10 (-300)). intros a b t u A B P1 P2 H.
  pose proof (Qabs_nonneg q) as N. assert (X : (Qabs q * a <= Qabs q * t)%Q) by (rewrite !(Qmult_comm (Qabs q)); now apply Qmult_le_compat_r).
  assert (Y : (0 <= Qabs q * t)%Q) by (apply Qmult_le_0_compat; [exact N|now apply Qlt_le_weak]). destruct H; lra.
Qed.

Theorem float_sound_of_strtod c pf lg l : strtod_sound (p_strtod pf) -> float_sound (Libm lg l (float_of c pf)).
Proof.
  intro SS. constructor; cbn [f_of_var].
  - intros v n S D X E H. destruct (var_to_f64_wide c pf v SS S D X) as (d & Ed & R). unfold float_of. rewrite Ed.
    pose proof (int_grid n H) as G.
    assert (Gv : on_grid binary64 (vval v)).
    { destruct G as (a & b & G1 & G2 & G3). exists a, b. split; [exact G1|]. split; [exact G2|]. now rewrite E. }
    destruct d as [|neg|f]; cbn [rounds_to] in R; [destruct R| |].
    + exfalso. destruct R as (f & N & K & _). cbn [f_emax binary64] in K. change (2 ^ 1024)%Q with (p2 1024) in K.
      apply (inf_below _ _ N K). rewrite E. change (Qabs (inject_Z n)) with (inject_Z (Z.abs n)). rewrite p10_Z by lia. apply inj_le.
      apply (Z.le_trans _ _ _ H). vm_compute. discriminate.
    + exists f. split; [reflexivity|]. rewrite <- E. exact (nearest_self _ _ _ Gv (proj1 R)).
  - intros v S D X H. destruct (var_to_f64_wide c pf v SS S D X) as (d & Ed & R). unfold float_of. rewrite Ed.
    destruct d as [|neg|f]; cbn [rounds_to] in R; [destruct R| |].
    + exfalso. destruct R as (f & N & K & _). exact (inf_below _ _ N K H).
    + exists f. split; [reflexivity|]. apply err_300. exact (nearest_err binary64 _ _ ltac:(reflexivity) (proj1 R)).
  - intros v k S D X Hk H. destruct (var_to_f64_wide c pf v SS S D X) as (d & Ed & R). unfold float_of. rewrite Ed.
    assert (G : on_grid binary64 (inject_Z k)) by (apply int_grid; rewrite Z.abs_eq; apply Hk).
    assert (G' : on_grid binary64 (- inject_Z k)) by (rewrite <- inject_Z_opp; apply int_grid; rewrite Z.abs_opp, Z.abs_eq; apply Hk).
    assert (K0 : (0 <= inject_Z k)%Q) by (change 0%Q with (inject_Z 0); apply inj_le, Hk).
    assert (K1 : (inject_Z k <= inject_Z (2 ^ 53))%Q) by apply inj_le, Hk.
    destruct d as [|neg|f]; cbn [rounds_to] in R; [destruct R| |].
    + clear R. pose proof big_1024 as B. revert B K1. generalize (2 ^ 1024)%Q (inject_Z (2 ^ 53)). intros b t B K1.
      exists (if neg then - b else b)%Q. split; [reflexivity|]. destruct neg; [rewrite Qabs_opp|]; (rewrite Qabs_pos by lra; lra).
    + destruct R as [N _]. exists f. split; [reflexivity|]. clear K1. destruct (Qlt_le_dec (vval v) 0) as [L|L].
      * rewrite Qabs_neg in H by lra. pose proof (nearest_mono' _ _ _ _ G' N ltac:(lra)) as K. rewrite Qabs_neg by lra. lra.
      * rewrite Qabs_pos in H by lra. pose proof (nearest_mono _ _ _ _ G N ltac:(lra)) as K. rewrite Qabs_pos by lra. exact K.
Qed.
