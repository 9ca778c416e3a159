(** * FloatTrip: decimals that survive the trip through a float. *)
From Coq Require Import ZArith QArith Qabs Qpower Lia Lqa Bool List.
From Verif Require Import Base Var Binary Format Parse Convert Spec SpecApi SpecText QDec Make SpecDouble Flt Float FloatGrid FloatF32 FloatText FloatApi.
Import ListNotations.
Open Scope Z_scope.

Lemma log10_ex n : 0 < n -> exists a, 0 <= a /\ 10 ^ a <= n < 10 ^ (a + 1).
Proof.
  intro H. assert (G : forall m, 0 <= m -> n < 10 ^ m -> exists a, 0 <= a /\ 10 ^ a <= n < 10 ^ (a + 1)).
  { apply (natlike_ind (fun m => n < 10 ^ m -> exists a, 0 <= a /\ 10 ^ a <= n < 10 ^ (a + 1))).
    - change (10 ^ 0) with 1. lia.
    - intros m Hm IH L. destruct (Z_lt_le_dec n (10 ^ m)) as [A|A]; [now apply IH|]. exists m. replace (m + 1) with (Z.succ m) by lia. lia. }
  apply (G n); [lia|]. apply Z.pow_gt_lin_r; lia.
Qed.

Lemma has_digits_norm p q k0 e0 : 1 <= p -> Z.abs k0 < 10 ^ p -> k0 <> 0 -> (q == dec k0 e0)%Q ->
  exists k e, 10 ^ (p - 1) <= Z.abs k < 10 ^ p /\ (q == dec k e)%Q.
Proof.
  intros P B N E. destruct (log10_ex (Z.abs k0) ltac:(lia)) as (a & A0 & A1 & A2).
  assert (Ha : a < p) by (apply (Z.pow_lt_mono_r_iff 10); lia). set (j := p - 1 - a).
  exists (k0 * 10 ^ j), (e0 - j). pose proof (Z.pow_pos_nonneg 10 j ltac:(lia) ltac:(lia)) as Pj.
  rewrite Z.abs_mul, (Z.abs_eq (10 ^ j)) by lia. split; [split|].
  - replace (p - 1) with (a + j) by lia. rewrite Z.pow_add_r by lia. nia.
  - replace p with (a + 1 + j) by lia. rewrite (Z.pow_add_r 10 (a + 1) j) by lia. nia.
  - rewrite dec_shift by lia. replace (e0 - j + j) with e0 by lia. exact E.
Qed.

Lemma Z_of_close a b : (Qabs (inject_Z a - inject_Z b) < 1)%Q -> a = b.
Proof.
  intro H. apply Qabs_Qlt_condition in H. destruct H as [H1 H2].
  assert (A : (inject_Z a < inject_Z (b + 1))%Q) by (rewrite inject_Z_plus; change (inject_Z 1) with 1%Q; lra).
  assert (B : (inject_Z b < inject_Z (a + 1))%Q) by (rewrite inject_Z_plus; change (inject_Z 1) with 1%Q; lra).
  apply (proj1 (inj_lt _ _)) in A. apply (proj1 (inj_lt _ _)) in B. lia.
Qed.

Lemma Qabs_p10 q e : (Qabs (q * p10 e) == Qabs q * p10 e)%Q.
Proof. rewrite Qabs_Qmult, (Qabs_pos (p10 e)) by (apply Qlt_le_weak, p10_pos). reflexivity. Qed.

Lemma inj_abs k : (inject_Z (Z.abs k) == Qabs (inject_Z k))%Q.
Proof. reflexivity. Qed.

Lemma sig_recovers p q f r k0 e0 dl : 2 <= p -> Z.abs k0 < 10 ^ p -> ~ (q == 0)%Q -> (q == dec k0 e0)%Q ->
  (0 <= dl)%Q -> (dl * p10 p <= 1 # 4)%Q -> (Qabs (f - q) <= dl * Qabs q)%Q ->
  significant p f r -> (r == q)%Q.
Proof.
  intros P B NZ E0 D0 D1 Cl Sg.
  assert (Nk : k0 <> 0) by (intros ->; apply NZ; rewrite E0; apply dec_0).
  destruct (has_digits_norm p q k0 e0 ltac:(lia) B Nk E0) as (k & e & Hk & E). clear k0 e0 B E0 Nk.
  set (F := (f * p10 (- e))%Q).
  assert (K1 : (p10 (p - 1) <= Qabs (inject_Z k))%Q) by (rewrite p10_Z by lia; rewrite <- inj_abs; apply inj_le; lia).
  assert (K2 : (Qabs (inject_Z k) <= p10 p - 1)%Q).
  { rewrite p10_Z by lia. rewrite <- inj_abs. change 1%Q with (inject_Z 1). unfold Qminus. rewrite <- inject_Z_opp, <- inject_Z_plus. apply inj_le. lia. }
  assert (Ef : (F - inject_Z k == (f - q) * p10 (- e))%Q).
  { unfold F. rewrite E. unfold dec. transitivity (f * p10 (- e) - inject_Z k * (p10 e * p10 (- e)))%Q; [rewrite p10_opp; ring|ring]. }
  assert (Aq : (Qabs q * p10 (- e) == Qabs (inject_Z k))%Q).
  { rewrite E. unfold dec. rewrite Qabs_p10, <- Qmult_assoc, p10_opp. ring. }
  assert (C1 : (Qabs (F - inject_Z k) <= dl * Qabs (inject_Z k))%Q).
  { rewrite Ef, Qabs_p10, <- Aq, Qmult_assoc. apply Qmult_le_r; [apply p10_pos|exact Cl]. }
  assert (C2 : (Qabs (F - inject_Z k) <= 1 # 4)%Q).
  { eapply Qle_trans; [exact C1|]. eapply Qle_trans; [|exact D1]. rewrite !(Qmult_comm dl). apply Qmult_le_compat_r; [lra|exact D0]. }
  destruct Sg as [[Z0 _]|(E' & K & S1 & S2 & S3 & S4)].
  { exfalso. assert (F0 : (F == 0)%Q) by (unfold F; rewrite Z0; ring). rewrite F0 in C2.
    assert (X : (Qabs (0 - inject_Z k) == Qabs (inject_Z k))%Q) by (rewrite Qabs_Qminus; apply Qabs_wd; ring). rewrite X in C2.
    assert (Y : (1 <= p10 (p - 1))%Q) by (rewrite <- p10_0; apply p10_le; lia). lra. }
  change (ten ^ E')%Q with (p10 E') in S1. change (ten ^ (E' + 1))%Q with (p10 (E' + 1)) in S2.
  change (ten ^ (p - 1 - E'))%Q with (p10 (p - 1 - E')) in S3. change (ten ^ (E' - p + 1))%Q with (p10 (E' - p + 1)) in S4.
  set (g := E' - e).
  assert (G1 : (p10 g <= Qabs F)%Q) by (unfold F, g; rewrite Qabs_p10; replace (E' - e) with (E' + - e) by lia; rewrite p10_add; apply Qmult_le_r; [apply p10_pos|exact S1]).
  assert (G2 : (Qabs F < p10 (g + 1))%Q) by (unfold F, g; rewrite Qabs_p10; replace (E' - e + 1) with (E' + 1 + - e) by lia; rewrite p10_add; apply Qmult_lt_r; [apply p10_pos|exact S2]).
  assert (T1 : (Qabs F <= Qabs (inject_Z k) + (1 # 4))%Q).
  { setoid_replace F with (inject_Z k + (F - inject_Z k))%Q at 1 by ring. eapply Qle_trans; [apply Qabs_triangle|]. lra. }
  assert (T2 : (Qabs (inject_Z k) <= Qabs F + (1 # 4))%Q).
  { setoid_replace (inject_Z k) with (F + (inject_Z k - F))%Q at 1 by ring. eapply Qle_trans; [apply Qabs_triangle|]. rewrite (Qabs_Qminus (inject_Z k)). lra. }
  assert (H1 : g < p). { apply (proj1 (p10_lt_iff _ _)). eapply Qle_lt_trans; [exact G1|]. lra. }
  assert (Step : (p10 (p - 1) == 10 * p10 (p - 2))%Q) by (replace (p - 1) with (1 + (p - 2)) by lia; rewrite p10_add; reflexivity).
  assert (One : (1 <= p10 (p - 2))%Q) by (rewrite <- p10_0; apply p10_le; lia).
  assert (H2 : p - 2 < g + 1). { apply (proj1 (p10_lt_iff _ _)). eapply Qlt_trans; [|exact G2]. lra. }
  assert (S5 : (f * p10 (p - 1 - E') == F * p10 (p - 1 - g))%Q).
  { unfold F. rewrite <- Qmult_assoc, <- p10_add. replace (- e + (p - 1 - g)) with (p - 1 - E') by (unfold g; lia). reflexivity. }
  rewrite S5 in S3. rewrite S4, E. unfold dec.
  destruct (Z.eq_dec g (p - 1)) as [G|G].
  - assert (EK : K = k).
    { apply Z_of_close. rewrite G in S3. rewrite Z.sub_diag, p10_0, Qmult_1_r in S3.
      setoid_replace (inject_Z K - inject_Z k)%Q with ((inject_Z K - F) + (F - inject_Z k))%Q by ring.
      eapply Qle_lt_trans; [apply Qabs_triangle|]. lra. }
    rewrite EK. replace (E' - p + 1) with e by (unfold g in G; lia). reflexivity.
  - assert (Gg : g = p - 2) by lia. rewrite Gg in *. replace (p - 2 + 1) with (p - 1) in G2 by lia. replace (p - 1 - (p - 2)) with 1 in S3 by lia.
    change (p10 1) with 10%Q in S3.
    assert (Ka : (Qabs (inject_Z k) <= p10 (p - 1))%Q).
    { rewrite p10_Z in * by lia. rewrite <- inj_abs in *. apply inj_le.
      assert (X : (inject_Z (Z.abs k) < inject_Z (10 ^ (p - 1) + 1))%Q) by (rewrite inject_Z_plus; change (inject_Z 1) with 1%Q; lra).
      apply (proj1 (inj_lt _ _)) in X. lia. }
    assert (Step2 : (p10 p == 10 * p10 (p - 1))%Q) by (replace p with (1 + (p - 1)) at 1 by lia; rewrite p10_add; reflexivity).
    assert (C3 : (Qabs (F - inject_Z k) <= dl * p10 (p - 1))%Q).
    { eapply Qle_trans; [exact C1|]. rewrite !(Qmult_comm dl). apply Qmult_le_compat_r; [exact Ka|exact D0]. }
    assert (C4 : (dl * p10 (p - 1) <= 1 # 40)%Q) by (rewrite Step2 in D1; setoid_replace (dl * (10 * p10 (p - 1)))%Q with (10 * (dl * p10 (p - 1)))%Q in D1 by ring; lra).
    assert (EK : K = 10 * k).
    { apply Z_of_close. rewrite inject_Z_mult. change (inject_Z 10) with 10%Q.
      setoid_replace (inject_Z K - 10 * inject_Z k)%Q with ((inject_Z K - F * 10) + 10 * (F - inject_Z k))%Q by ring.
      eapply Qle_lt_trans; [apply Qabs_triangle|]. rewrite (Qabs_Qmult 10). change (Qabs 10) with 10%Q. lra. }
    rewrite EK, inject_Z_mult. change (inject_Z 10) with (p10 1). replace e with (1 + (E' - p + 1)) by (unfold g in Gg; lia).
    rewrite (p10_add 1 (E' - p + 1)). ring.
Qed.

(** ** The trips *)
Lemma p2_m1022 : (p2 (-1022) < p10 (-307))%Q.
Proof.
  apply (inv_lt (p10 307) (p2 1022)); [apply p10_pos|apply p2_pos| |exact (p10_opp 307)|exact (p2_opp 1022)].
  rewrite p2_Z, p10_Z by lia. apply inj_lt. reflexivity.
Qed.
Lemma p2_m126 : (p2 (-126) < p10 (-37))%Q.
Proof.
  apply (inv_lt (p10 37) (p2 126)); [apply p10_pos|apply p2_pos| |exact (p10_opp 37)|exact (p2_opp 126)].
  rewrite p2_Z, p10_Z by lia. apply inj_lt. reflexivity.
Qed.

(** in the normal range the rounding error is relative *)
Lemma nearest_rel F q f : 0 < f_prec F -> nearest F q f -> (p2 (f_emin F + f_prec F - 1) <= Qabs q)%Q ->
  (Qabs (f - q) <= p2 (- f_prec F) * Qabs q)%Q.
Proof.
  intros P N L. destruct (nearest_err F q f P N) as [H|H]; [rewrite Qmult_comm; exact H|].
  eapply Qle_trans; [exact H|]. replace (f_emin F - 1) with (- f_prec F + (f_emin F + f_prec F - 1)) by lia. rewrite p2_add.
  rewrite !(Qmult_comm (p2 (- f_prec F))). apply Qmult_le_compat_r; [exact L|apply Qlt_le_weak, p2_pos].
Qed.

Lemma near_upper (a f q B : Q) : (Qabs (f - q) <= a * Qabs q -> Qabs q < B -> a <= 1 # 1000 -> 0 <= a -> Qabs f < (1001 # 1000) * B)%Q.
Proof.
  intros H U A A0. assert (T : (Qabs f <= Qabs q + Qabs (f - q))%Q).
  { setoid_replace f with (q + (f - q))%Q at 1 by ring. apply Qabs_triangle. }
  pose proof (Qabs_nonneg q) as P. assert (X : (a * Qabs q <= (1 # 1000) * Qabs q)%Q) by now apply Qmult_le_compat_r. lra.
Qed.

Lemma near_lower (a f q B : Q) : (Qabs (f - q) <= a * Qabs q -> B <= Qabs q -> a <= 1 # 1000 -> 0 <= a -> (999 # 1000) * B <= Qabs f)%Q.
Proof.
  intros H U A A0. assert (T : (Qabs q <= Qabs f + Qabs (f - q))%Q).
  { rewrite Qabs_Qminus. setoid_replace q with (f + (q - f))%Q at 1 by ring. apply Qabs_triangle. }
  pose proof (Qabs_nonneg q) as P. assert (X : (a * Qabs q <= (1 # 1000) * Qabs q)%Q) by now apply Qmult_le_compat_r. lra.
Qed.

Lemma small_53 : (p2 (-53) <= 1 # 1000)%Q /\ (p2 (-53) * p10 15 <= 1 # 4)%Q.
Proof. split; unfold Qle; vm_compute; discriminate. Qed.

Lemma hi_64 : ((1001 # 1000) * p10 308 <= p2 1024)%Q.
Proof.
  rewrite p2_Z, p10_Z by lia. apply Qle_trans with (inject_Z (1001 * 10 ^ 308 / 1000 + 1)); [|apply inj_le; vm_compute; discriminate].
  unfold Qle. vm_compute. discriminate.
Qed.

Lemma significant_zero p f r : (f == 0)%Q -> significant p f r -> (r == 0)%Q.
Proof.
  intros E [[_ R]|(e & k & L & _)]; [exact R|]. rewrite E in L. change (Qabs 0) with 0%Q in L. pose proof (p10_pos e) as P. change (p10 e) with (ten ^ e)%Q in P. lra.
Qed.

Lemma zero_on_grid F q : 0 < f_prec F -> (q == 0)%Q -> on_grid F q.
Proof. intros P H. exists 0, (f_emin F). split; [cbn; apply Z.pow_pos_nonneg; lia|]. split; [lia|rewrite H; ring]. Qed.

Theorem f64_trip c pf x q s : snprintf_sound (p_snprintf pf) -> strtod_sound (p_strtod pf) ->
  stores (be_varlen c) x q s -> has_digits 15 q -> (q == 0)%Q \/ ((ten ^ (-307) <= Qabs q)%Q /\ (Qabs q < ten ^ 308)%Q) ->
  exists d y s', num_to_f64 c pf x = Ret (inl d) /\ num_from_f64 c pf d = Ret (inl y) /\
    stores (be_varlen c) y q s' /\ least_scale q s'.
Proof.
  intros S1 S2 H (k & e & Hk & E) R. destruct (to_f64_spec c pf x q s S2 H) as (d & E1 & _ & Rd).
  assert (G : exists f, d = FNum f /\ finite_in binary64 f /\ forall r, significant 15 f r -> (r == q)%Q).
  { destruct R as [Z0|[Lo Hi]].
    - assert (Gq : on_grid binary64 q) by (apply zero_on_grid; [reflexivity|exact Z0]).
      destruct d as [|n|f]; [destruct Rd| |].
      + destruct Rd as (f & N & B & _). apply (nearest_self _ _ _ Gq) in N. exfalso. rewrite N, Z0 in B. change (Qabs 0) with 0%Q in B.
        pose proof (p2_pos 1024) as P. cbn [f_emax binary64] in B. change (2 ^ 1024)%Q with (p2 1024) in B. revert B P. generalize (p2 1024). intros. lra.
      + destruct Rd as [N B]. exists f. split; [reflexivity|]. split; [split; [apply N|exact B]|]. apply (nearest_self _ _ _ Gq) in N.
        intros r Sr. rewrite Z0 in N |- *. exact (significant_zero 15 f r N Sr).
    - change (ten ^ (-307))%Q with (p10 (-307)) in Lo. change (ten ^ 308)%Q with (p10 308) in Hi.
      pose proof (Qle_trans _ _ _ (Qlt_le_weak _ _ p2_m1022) Lo) as Lo2. destruct small_53 as [A B].
      assert (NZ : ~ (q == 0)%Q). { intro Z0. rewrite Z0 in Lo. change (Qabs 0) with 0%Q in Lo. pose proof (p10_pos (-307)) as P. revert Lo P. generalize (p10 (-307)). intros. lra. }
      assert (K : forall f, nearest binary64 q f -> (Qabs (f - q) <= p2 (-53) * Qabs q)%Q) by (intros f N; exact (nearest_rel binary64 q f eq_refl N Lo2)).
      destruct d as [|n|f]; [destruct Rd| |].
      + destruct Rd as (f & N & Bf & _). exfalso. pose proof (near_upper _ _ _ _ (K f N) Hi A (Qlt_le_weak _ _ (p2_pos _))) as U.
        pose proof (Qlt_le_trans _ _ _ U hi_64) as U2. exact (Qlt_not_le _ _ U2 Bf).
      + destruct Rd as [N Bf]. exists f. split; [reflexivity|]. split; [split; [apply N|exact Bf]|]. intros r Sr.
        apply (sig_recovers 15 q f r k e (p2 (-53))); [lia|exact Hk|exact NZ|exact E|apply Qlt_le_weak, p2_pos|exact B|exact (K f N)|exact Sr]. }
  destruct G as (f & -> & Fin & Rec). destruct (from_float_spec c pf 15 f S1 (or_intror eq_refl) Fin) as (y & r & s' & Ey & Sr & Sy & Ls).
  exists (FNum f), y, s'. split; [exact E1|]. split; [exact Ey|]. pose proof (Rec r Sr) as Er. split; [now apply (stores_ext _ _ _ _ _ Er)|].
  destruct Ls as (L1 & L2 & L3). split; [exact L1|]. split; [now apply (mult_comp r)|]. intros s'' Hs M. apply L3; [exact Hs|]. apply (mult_comp q); [now symmetry|exact M].
Qed.

Lemma small_24 : (p2 (-24) <= 1 # 1000)%Q /\ (p2 (-23) * p10 6 <= 1 # 4)%Q /\ (p2 (-24) * (1001 # 1000) + p2 (-53) <= p2 (-23))%Q.
Proof. split; [|split]; unfold Qle; vm_compute; discriminate. Qed.

Lemma consts_32 : ((1001 # 1000) * p10 38 <= 2 ^ 128 - 2 ^ 103)%Q /\ ((1001 # 1000) * ((1001 # 1000) * p10 38) <= p2 128)%Q /\
  (p2 (-126) <= (999 # 1000) * p10 (-37))%Q /\ (2 ^ (-150) < (999 # 1000) * p10 (-37))%Q /\ (p2 (-1022) <= p10 (-37))%Q /\
  ((1001 # 1000) * p10 38 <= p2 1024)%Q.
Proof.
  assert (X : ((1001 # 1000) * p10 38 <= p2 128)%Q) by (unfold Qle; vm_compute; discriminate).
  split; [|split; [|split; [|split; [|split]]]].
  1-4: unfold Qle, Qlt; vm_compute; (reflexivity || discriminate).
  - apply Qle_trans with (p2 (-126)); [apply p2_le; lia|apply Qlt_le_weak, p2_m126].
  - eapply Qle_trans; [exact X|]. apply p2_le. lia.
Qed.

Lemma lost_dec_far f : ((1001 # 1000) * p10 38 > Qabs f)%Q -> ((999 # 1000) * p10 (-37) <= Qabs f)%Q -> ~ f32_lost f.
Proof.
  destruct consts_32 as (A & _ & _ & D & _). intros U L [H|[_ H]].
  - exact (Qlt_not_le _ _ (Qlt_le_trans _ _ _ U A) H).
  - exact (Qlt_not_le _ _ (Qlt_le_trans _ _ _ D L) H).
Qed.

Theorem f32_trip c pf x q s : snprintf_sound (p_snprintf pf) -> strtod_sound (p_strtod pf) ->
  stores (be_varlen c) x q s -> has_digits 6 q -> (q == 0)%Q \/ ((ten ^ (-37) <= Qabs q)%Q /\ (Qabs q < ten ^ 38)%Q) ->
  exists d y s', num_to_f32 c pf x = Ret (inl d) /\ num_from_f32 c pf d = Ret (inl y) /\
    stores (be_varlen c) y q s' /\ least_scale q s'.
Proof.
  intros S1 S2 H (k & e & Hk & E) R. destruct (to_f32_spec c pf x q s S2 H) as (d & r0 & Rd & E1 & _ & C).
  assert (G : exists g, r0 = inl (FNum g) /\ finite_in binary32 g /\ forall r, significant 6 g r -> (r == q)%Q).
  { destruct R as [Z0|[Lo Hi]].
    - assert (Gq : on_grid binary64 q) by (apply zero_on_grid; [reflexivity|exact Z0]).
      destruct d as [|n|f]; [destruct Rd| |].
      + destruct Rd as (f & N & B & _). apply (nearest_self _ _ _ Gq) in N. exfalso. rewrite N, Z0 in B. change (Qabs 0) with 0%Q in B.
        pose proof (p2_pos 1024) as P. cbn [f_emax binary64] in B. change (2 ^ 1024)%Q with (p2 1024) in B. revert B P. generalize (p2 1024). intros. lra.
      + destruct Rd as [N B]. apply (nearest_self _ _ _ Gq) in N. rewrite Z0 in N.
        assert (Gf : on_grid binary32 f) by (apply zero_on_grid; [reflexivity|exact N]).
        destruct C as [[L _]|[_ (g & -> & Rg)]].
        * exfalso. destruct L as [L|[L _]]; [|contradiction]. rewrite N in L. change (Qabs 0) with 0%Q in L.
          apply Qle_bool_iff in L. vm_compute in L. discriminate.
        * destruct g as [|n|g]; [destruct Rg| |].
          -- destruct Rg as (g & Ng & Bg & _). apply (nearest_self _ _ _ Gf) in Ng. exfalso. rewrite Ng, N in Bg. change (Qabs 0) with 0%Q in Bg.
             apply Qle_bool_iff in Bg. vm_compute in Bg. discriminate.
          -- destruct Rg as [Ng Bg]. exists g. split; [reflexivity|]. split; [split; [apply Ng|exact Bg]|]. apply (nearest_self _ _ _ Gf) in Ng.
             intros r Sr. rewrite N in Ng. rewrite Z0. exact (significant_zero 6 g r Ng Sr).
    - change (ten ^ (-37))%Q with (p10 (-37)) in Lo. change (ten ^ 38)%Q with (p10 38) in Hi.
      destruct consts_32 as (K1 & K2 & K3 & K4 & K5 & K6). destruct small_53 as [A _]. destruct small_24 as (A1 & A2 & A3).
      pose proof (Qle_trans _ _ _ K5 Lo) as Lo2. pose proof (Qlt_le_weak _ _ (p2_pos (-53))) as P53. pose proof (Qlt_le_weak _ _ (p2_pos (-24))) as P24.
      assert (NZ : ~ (q == 0)%Q). { intro Z0. rewrite Z0 in Lo. change (Qabs 0) with 0%Q in Lo. pose proof (p10_pos (-37)) as P. revert Lo P. generalize (p10 (-37)). intros. lra. }
      assert (K : forall f, nearest binary64 q f -> (Qabs (f - q) <= p2 (-53) * Qabs q)%Q) by (intros f N; exact (nearest_rel binary64 q f eq_refl N Lo2)).
      destruct d as [|n|f]; [destruct Rd| |].
      + destruct Rd as (f & N & Bf & _). exfalso. pose proof (near_upper _ _ _ _ (K f N) Hi A P53) as U.
        pose proof (Qlt_le_trans _ _ _ U K6) as U2. exact (Qlt_not_le _ _ U2 Bf).
      + destruct Rd as [N Bf]. pose proof (K f N) as Kf. pose proof (near_upper _ _ _ _ Kf Hi A P53) as U. pose proof (near_lower _ _ _ _ Kf Lo A P53) as L.
        destruct C as [[Lf _]|[_ (g & -> & Rg)]]; [exfalso; exact (lost_dec_far f U L Lf)|].
        pose proof (Qle_trans _ _ _ K3 L) as L2.
        assert (J : forall g, nearest binary32 f g -> (Qabs (g - f) <= p2 (-24) * Qabs f)%Q) by (intros g0 Ng; exact (nearest_rel binary32 f g0 eq_refl Ng L2)).
        destruct g as [|n|g]; [destruct Rg| |].
        * destruct Rg as (g & Ng & Bg & _). exfalso. pose proof (near_upper _ _ _ _ (J g Ng) U A1 P24) as V.
          pose proof (Qlt_le_trans _ _ _ V K2) as V2. exact (Qlt_not_le _ _ V2 Bg).
        * destruct Rg as [Ng Bg]. exists g. split; [reflexivity|]. split; [split; [apply Ng|exact Bg]|]. intros r Sr.
          pose proof (J g Ng) as Jg. clear K1 K2 K3 K4 K5 K6 U L L2 Lo Lo2 Hi Bg Bf.
          apply (sig_recovers 6 q g r k e (p2 (-23))); [lia|exact Hk|exact NZ|exact E|apply Qlt_le_weak, p2_pos|exact A2| |exact Sr].
          assert (T : (Qabs (g - q) <= Qabs (g - f) + Qabs (f - q))%Q) by (setoid_replace (g - q)%Q with ((g - f) + (f - q))%Q by ring; apply Qabs_triangle).
          assert (Tf : (Qabs f <= (1001 # 1000) * Qabs q)%Q).
          { assert (X : (Qabs f <= Qabs q + Qabs (f - q))%Q) by (setoid_replace f with (q + (f - q))%Q at 1 by ring; apply Qabs_triangle).
            assert (Y : (p2 (-53) * Qabs q <= (1 # 1000) * Qabs q)%Q) by (apply Qmult_le_compat_r; [exact A|apply Qabs_nonneg]).
            generalize dependent (p2 (-53)). intros. lra. }
          assert (Y : (p2 (-24) * Qabs f <= p2 (-24) * (1001 # 1000) * Qabs q)%Q).
          { rewrite <- Qmult_assoc, !(Qmult_comm (p2 (-24))). apply Qmult_le_compat_r; [exact Tf|exact P24]. }
          assert (W : ((p2 (-24) * (1001 # 1000) + p2 (-53)) * Qabs q <= p2 (-23) * Qabs q)%Q) by (apply Qmult_le_compat_r; [exact A3|apply Qabs_nonneg]).
          rewrite Qmult_plus_distr_l in W. clear A A1 A2 A3 P53 P24.
          generalize dependent (p2 (-24) * (1001 # 1000) * Qabs q)%Q. generalize dependent (p2 (-23) * Qabs q)%Q. generalize dependent (p2 (-24) * Qabs f)%Q. generalize dependent (p2 (-53) * Qabs q)%Q. intros. lra. }
  destruct G as (g & -> & Fin & Rec).
  assert (Fin64 : finite_in binary64 g). { destruct Fin as [Gg Bg]. split; [now apply grid_sub|]. eapply Qlt_trans; [exact Bg|]. apply (p2_lt 128 1024). lia. }
  destruct (from_float_spec c pf 6 g S1 (or_introl eq_refl) Fin64) as (y & r & s' & Ey & Sr & Sy & Ls).
  exists (FNum g), y, s'. split; [exact E1|]. split; [exact Ey|]. pose proof (Rec r Sr) as Er. split; [now apply (stores_ext _ _ _ _ _ Er)|].
  destruct Ls as (L1 & L2 & L3). split; [exact L1|]. split; [now apply (mult_comp r)|]. intros s'' Hs M. apply L3; [exact Hs|]. apply (mult_comp q); [now symmetry|exact M].
Qed.
