(** * Laws: algebraic laws byte for byte, agreement of the build profiles. *)
From Coq Require Import ZArith QArith Qround Qpower Qabs List Bool Lia Lqa.
From Verif Require Import Base Var Binary Parse Typmod Num Spec QDec Digits Arith Strip Round Trunc AddSub Signed
  CeilFloor Codec Make SpecApi Api1 Mul Div DivQ Api2 Api3 Api4.
Import ListNotations.
Open Scope Z_scope.

Lemma result_of_some be q s z : result_of be q s (Some z) -> stores be z q s.
Proof.
  intros [A B]. destruct (Qlt_le_dec (Qabs q) limit) as [L|L].
  - destruct (A L) as (x & E & X). injection E as <-. exact X.
  - discriminate (B L).
Qed.

Lemma result_of_none be q s : result_of be q s None -> (limit <= Qabs q)%Q.
Proof.
  intros [A B]. destruct (Qlt_le_dec (Qabs q) limit) as [L|L]; [|exact L].
  destruct (A L) as (x & E & _). discriminate.
Qed.

Lemma valid_result be q s z : stores be z q s -> valid be z.
Proof. intro H. right. now exists q, s. Qed.

Definition is_nan_bytes be (x : bytes) : Prop := stores_nan be x.

(** split on NaN of valid operands *)
Lemma valid_dec be x : valid be x -> stores_nan be x \/ exists q s, stores be x q s.
Proof. intro V. exact V. Qed.

Lemma add_comm_bytes c x y : valid (be_varlen c) x -> valid (be_varlen c) y ->
  checked_add c x y = checked_add c y x.
Proof.
  intros Vx Vy. destruct Vx as [Nx|(q1 & s1 & S1)].
  - pose proof (nan_arith c x y (or_introl Nx) Vy (or_introl Nx)) as [-> _].
    now pose proof (nan_arith c y x Vy (or_introl Nx) (or_intror Nx)) as [-> _].
  - destruct Vy as [Ny|(q2 & s2 & S2)].
    + pose proof (nan_arith c x y (valid_result _ _ _ _ S1) (or_introl Ny) (or_intror Ny)) as [-> _].
      now pose proof (nan_arith c y x (or_introl Ny) (valid_result _ _ _ _ S1) (or_introl Ny)) as [-> _].
    + destruct (checked_add_spec c x y _ _ _ _ S1 S2) as (o1 & E1 & R1).
      destruct (checked_add_spec c y x _ _ _ _ S2 S1) as (o2 & E2 & R2). rewrite E1, E2. f_equal.
      apply (result_of_det (be_varlen c) (q1 + q2) (Z.max s1 s2)); [exact R1|].
      rewrite Z.max_comm. apply (result_of_ext _ (q2 + q1)); [ring|exact R2].
Qed.

Lemma mul_comm_bytes c x y : valid (be_varlen c) x -> valid (be_varlen c) y ->
  checked_mul c x y = checked_mul c y x.
Proof.
  intros Vx Vy. destruct Vx as [Nx|(q1 & s1 & S1)].
  - pose proof (nan_arith c x y (or_introl Nx) Vy (or_introl Nx)) as (_ & _ & -> & _).
    now pose proof (nan_arith c y x Vy (or_introl Nx) (or_intror Nx)) as (_ & _ & -> & _).
  - destruct Vy as [Ny|(q2 & s2 & S2)].
    + pose proof (nan_arith c x y (valid_result _ _ _ _ S1) (or_introl Ny) (or_intror Ny)) as (_ & _ & -> & _).
      now pose proof (nan_arith c y x (or_introl Ny) (valid_result _ _ _ _ S1) (or_introl Ny)) as (_ & _ & -> & _).
    + destruct (Z_le_dec (s1 + s2) 16383) as [L|L].
      * destruct (checked_mul_spec c x y _ _ _ _ S1 S2 L) as (o1 & E1 & R1).
        destruct (checked_mul_spec c y x _ _ _ _ S2 S1 ltac:(lia)) as (o2 & E2 & R2). rewrite E1, E2. f_equal.
        apply (result_of_det (be_varlen c) (q1 * q2) (s1 + s2)); [exact R1|].
        rewrite Z.add_comm. apply (result_of_ext _ (q2 * q1)); [ring|exact R2].
      * destruct (checked_mul_scale c x y _ _ _ _ S1 S2 ltac:(lia)) as [A1 B1].
        destruct (checked_mul_scale c y x _ _ _ _ S2 S1 ltac:(lia)) as [A2 B2].
        destruct (Qeq_dec q1 0) as [Z1|Z1]; [now rewrite B1, B2 by auto|].
        destruct (Qeq_dec q2 0) as [Z2|Z2]; [now rewrite B1, B2 by auto|].
        now rewrite A1, A2 by auto.
Qed.

Lemma sub_add_neg c x y : valid (be_varlen c) x -> valid (be_varlen c) y ->
  checked_sub c x y = (z <- num_negate c y ;; checked_add c x z).
Proof.
  intros Vx Vy. destruct Vy as [Ny|(q2 & s2 & S2)].
  - pose proof (nan_unary c y 0 Ny) as [-> _]. cbn [bind]. unfold stores_nan in Ny. subst y.
    pose proof (nan_arith c x _ Vx (valid_nan _) (or_intror eq_refl)) as (-> & -> & _). reflexivity.
  - destruct (num_negate_spec c y _ _ S2) as (z & Ez & Sz). rewrite Ez. cbn [bind].
    destruct Vx as [Nx|(q1 & s1 & S1)].
    + pose proof (nan_arith c x y (or_introl Nx) (valid_result _ _ _ _ S2) (or_introl Nx)) as (_ & -> & _).
      now pose proof (nan_arith c x z (or_introl Nx) (valid_result _ _ _ _ Sz) (or_introl Nx)) as (-> & _).
    + destruct (checked_sub_spec c x y _ _ _ _ S1 S2) as (o1 & E1 & R1).
      destruct (checked_add_spec c x z _ _ _ _ S1 Sz) as (o2 & E2 & R2). rewrite E1, E2. f_equal.
      exact (result_of_det _ _ _ _ _ R1 R2).
Qed.

Lemma add_assoc_bytes c x y z a b r : valid (be_varlen c) x -> valid (be_varlen c) y -> valid (be_varlen c) z ->
  checked_add c x y = Ret (Some a) -> checked_add c y z = Ret (Some b) ->
  checked_add c a z = Ret (Some r) -> checked_add c x b = Ret (Some r).
Proof.
  intros Vx Vy Vz Ea Eb Er.
  destruct Vx as [Nx|(q1 & s1 & S1)].
  { pose proof (nan_arith c x y (or_introl Nx) Vy (or_introl Nx)) as [Ka _]. rewrite Ka in Ea. injection Ea as <-.
    pose proof (nan_arith c _ z (valid_nan _) Vz (or_introl eq_refl)) as [Kr _]. rewrite Kr in Er. injection Er as <-.
    unfold stores_nan in Nx. subst x. apply with_nan2_l. }
  pose proof (valid_result _ _ _ _ S1) as Vx.
  destruct Vy as [Ny|(q2 & s2 & S2)].
  { pose proof (nan_arith c x y Vx (or_introl Ny) (or_intror Ny)) as [Ka _]. rewrite Ka in Ea. injection Ea as <-.
    pose proof (nan_arith c _ z (valid_nan _) Vz (or_introl eq_refl)) as [Kr _]. rewrite Kr in Er. injection Er as <-.
    pose proof (nan_arith c y z (or_introl Ny) Vz (or_introl Ny)) as [Kb _]. rewrite Kb in Eb. injection Eb as <-.
    exact (proj1 (nan_arith c x _ Vx (valid_nan _) (or_intror eq_refl))). }
  destruct (checked_add_spec c x y _ _ _ _ S1 S2) as (oa & Ka & Ra). rewrite Ka in Ea. injection Ea as ->.
  apply result_of_some in Ra.
  destruct Vz as [Nz|(q3 & s3 & S3)].
  { pose proof (nan_arith c y z (valid_result _ _ _ _ S2) (or_introl Nz) (or_intror Nz)) as [Kb _]. rewrite Kb in Eb. injection Eb as <-.
    pose proof (nan_arith c a z (valid_result _ _ _ _ Ra) (or_introl Nz) (or_intror Nz)) as [Kr _]. rewrite Kr in Er. injection Er as <-.
    exact (proj1 (nan_arith c x _ Vx (valid_nan _) (or_intror eq_refl))). }
  destruct (checked_add_spec c y z _ _ _ _ S2 S3) as (ob & Kb & Rb). rewrite Kb in Eb. injection Eb as ->.
  apply result_of_some in Rb.
  destruct (checked_add_spec c a z _ _ _ _ Ra S3) as (o1 & K1 & R1). rewrite K1 in Er. injection Er as ->.
  destruct (checked_add_spec c x b _ _ _ _ S1 Rb) as (o2 & K2 & R2). rewrite K2. f_equal.
  apply (result_of_det (be_varlen c) (q1 + (q2 + q3)) (Z.max s1 (Z.max s2 s3))); [exact R2|].
  rewrite Z.max_assoc. apply (result_of_ext _ (q1 + q2 + q3)); [ring|exact R1].
Qed.

(** distributivity up to [==] *)
Lemma distrib_value c x y z b r p1 p2 t : valid (be_varlen c) x -> valid (be_varlen c) y -> valid (be_varlen c) z ->
  checked_add c y z = Ret (Some b) -> checked_mul c x b = Ret (Some r) ->
  checked_mul c x y = Ret (Some p1) -> checked_mul c x z = Ret (Some p2) ->
  checked_add c p1 p2 = Ret (Some t) -> num_eq c r t = Ret true.
Proof.
  intros Vx Vy Vz Eb Er E1 E2 Et.
  assert (NN : num_eq c (nan_layout (be_varlen c)) (nan_layout (be_varlen c)) = Ret true).
  { destruct (num_eq_spec c _ _ None None eq_refl eq_refl) as (k & K & H). rewrite K. f_equal. apply H. exact I. }
  destruct Vx as [Nx|(q1 & s1 & S1)].
  { unfold stores_nan in Nx. subst x.
    unfold checked_mul in *. rewrite with_nan2_l in Er, E1, E2. injection Er as <-. injection E1 as <-. injection E2 as <-.
    unfold checked_add in Et. rewrite with_nan2_l in Et. injection Et as <-. exact NN. }
  pose proof (valid_result _ _ _ _ S1) as Vx.
  assert (Sc : forall u w q s, stores (be_varlen c) u q s -> checked_mul c x u = Ret (Some w) ->
     stores (be_varlen c) w (q1 * q) (s1 + s)).
  { intros u w q s Su Ew. destruct (Z_le_dec (s1 + s) 16383) as [L|L].
    - destruct (checked_mul_spec c x u _ _ _ _ S1 Su L) as (o & K & R). rewrite K in Ew. injection Ew as ->.
      now apply result_of_some.
    - destruct (checked_mul_scale c x u _ _ _ _ S1 Su ltac:(lia)) as [A B].
      destruct (Qeq_dec q1 0) as [Z1|Z1].
      { rewrite B in Ew by auto. destruct (dbg c); discriminate. }
      destruct (Qeq_dec q 0) as [Z2|Z2].
      { rewrite B in Ew by auto. destruct (dbg c); discriminate. }
      rewrite A in Ew by auto. discriminate. }
  destruct Vy as [Ny|(q2 & s2 & S2)].
  { pose proof (nan_arith c y z (or_introl Ny) Vz (or_introl Ny)) as [K _]. rewrite K in Eb. injection Eb as <-.
    pose proof (nan_arith c x _ Vx (valid_nan _) (or_intror eq_refl)) as (_ & _ & K1 & _). rewrite K1 in Er. injection Er as <-.
    pose proof (nan_arith c x y Vx (or_introl Ny) (or_intror Ny)) as (_ & _ & K2 & _). rewrite K2 in E1. injection E1 as <-.
    unfold checked_add in Et. rewrite with_nan2_l in Et. injection Et as <-. exact NN. }
  destruct Vz as [Nz|(q3 & s3 & S3)].
  { pose proof (nan_arith c y z (valid_result _ _ _ _ S2) (or_introl Nz) (or_intror Nz)) as [K _]. rewrite K in Eb. injection Eb as <-.
    pose proof (nan_arith c x _ Vx (valid_nan _) (or_intror eq_refl)) as (_ & _ & K1 & _). rewrite K1 in Er. injection Er as <-.
    pose proof (nan_arith c x z Vx (or_introl Nz) (or_intror Nz)) as (_ & _ & K2 & _). rewrite K2 in E2. injection E2 as <-.
    pose proof (Sc _ _ _ _ S2 E1) as P1.
    pose proof (nan_arith c p1 _ (valid_result _ _ _ _ P1) (valid_nan _) (or_intror eq_refl)) as (K3 & _). rewrite K3 in Et. injection Et as <-.
    exact NN. }
  destruct (checked_add_spec c y z _ _ _ _ S2 S3) as (ob & Kb & Rb). rewrite Kb in Eb. injection Eb as ->.
  apply result_of_some in Rb.
  pose proof (Sc _ _ _ _ Rb Er) as Pr. pose proof (Sc _ _ _ _ S2 E1) as P1. pose proof (Sc _ _ _ _ S3 E2) as P2.
  destruct (checked_add_spec c p1 p2 _ _ _ _ P1 P2) as (ot & Kt & Rt). rewrite Kt in Et. injection Et as ->.
  apply result_of_some in Rt.
  destruct (num_eq_spec c r t (Some (q1 * (q2 + q3))%Q) (Some (q1 * q2 + q1 * q3)%Q)) as (k & K & H).
  - eexists; exact Pr.
  - eexists; exact Rt.
  - rewrite K. f_equal. apply H. cbn. ring.
Qed.

(** negation is an involution *)
Lemma negate_involution c x : valid (be_varlen c) x -> (y <- num_negate c x ;; num_negate c y) = Ret x.
Proof.
  intros [N|(q & s & S)].
  - pose proof (nan_unary c x 0 N) as [-> _]. cbn [bind].
    pose proof (nan_unary c (nan_layout (be_varlen c)) 0 eq_refl) as [-> _]. now rewrite N.
  - destruct (num_negate_spec c x _ _ S) as (y & -> & Sy). cbn [bind].
    destruct (num_negate_spec c y _ _ Sy) as (z & -> & Sz). f_equal.
    apply (stores_unique (be_varlen c) z x q s); [|exact S]. apply (stores_ext _ _ (- - q)); [ring|exact Sz].
Qed.

(** ** Debug and release builds *)
Definition debug (be : bool) : cfg := Cfg true be.
Definition release (be : bool) : cfg := Cfg false be.

Lemma profile2 be (f : cfg -> bytes -> bytes -> outcome (option bytes)) x y q s :
  (forall d, exists o, f (Cfg d be) x y = Ret o /\ result_of be q s o) ->
  f (debug be) x y = f (release be) x y.
Proof.
  intro H. destruct (H true) as (o1 & E1 & R1). destruct (H false) as (o2 & E2 & R2).
  unfold debug, release. rewrite E1, E2. f_equal. exact (result_of_det _ _ _ _ _ R1 R2).
Qed.

Lemma valid2_cases be x y : valid be x -> valid be y ->
  (stores_nan be x \/ stores_nan be y) \/ (exists q1 s1 q2 s2, stores be x q1 s1 /\ stores be y q2 s2).
Proof.
  intros [N|(q1 & s1 & S1)]; [auto|]. intros [N|(q2 & s2 & S2)]; [auto|]. right. now exists q1, s1, q2, s2.
Qed.

Lemma profiles_arith be x y : valid be x -> valid be y ->
  checked_add (debug be) x y = checked_add (release be) x y /\
  checked_sub (debug be) x y = checked_sub (release be) x y /\
  checked_div (debug be) x y = checked_div (release be) x y /\
  checked_div_trunc (debug be) x y = checked_div_trunc (release be) x y /\
  checked_rem (debug be) x y = checked_rem (release be) x y /\
  num_cmp (debug be) x y = num_cmp (release be) x y.
Proof.
  intros Vx Vy.
  assert (Cmp : num_cmp (debug be) x y = num_cmp (release be) x y).
  { assert (K : forall z, valid be z -> exists a, denotes be z a).
    { intros z [N|(q & s & S)]; [exists None; exact N|exists (Some q); now exists s]. }
    destruct (K x Vx) as (a & Ha). destruct (K y Vy) as (b & Hb).
    now rewrite (num_cmp_spec (debug be) x y a b Ha Hb), (num_cmp_spec (release be) x y a b Ha Hb). }
  destruct (valid2_cases be x y Vx Vy) as [N|(q1 & s1 & q2 & s2 & S1 & S2)].
  - pose proof (nan_arith (debug be) x y Vx Vy N) as (A1 & A2 & A3 & A4 & A5 & A6 & _).
    pose proof (nan_arith (release be) x y Vx Vy N) as (B1 & B2 & B3 & B4 & B5 & B6 & _).
    rewrite A1, A2, A4, A5, A6, B1, B2, B4, B5, B6. repeat (split; [reflexivity|]). exact Cmp.
  - split; [|split; [|split; [|split; [|split; [|exact Cmp]]]]].
    + apply (profile2 be checked_add x y (q1 + q2) (Z.max s1 s2)). intro d.
      exact (checked_add_spec (Cfg d be) x y _ _ _ _ S1 S2).
    + apply (profile2 be checked_sub x y (q1 - q2) (Z.max s1 s2)). intro d.
      exact (checked_sub_spec (Cfg d be) x y _ _ _ _ S1 S2).
    + destruct (Qeq_dec q2 0) as [Z|Z].
      * pose proof (div_by_zero (debug be) x y _ _ _ _ S1 S2 Z) as (-> & _).
        now pose proof (div_by_zero (release be) x y _ _ _ _ S1 S2 Z) as (-> & _).
      * destruct S1 as (n1 & C1 & -> & V1 & _). destruct S2 as (n2 & C2 & -> & V2 & _).
        apply (profile2 be checked_div _ _ (round_at (value n1 / value n2) (div_scale n1 n2)) (div_scale n1 n2)). intro d.
        apply (checked_div_numbers (Cfg d be) n1 n2 C1 C2). now rewrite V2.
    + destruct (Qeq_dec q2 0) as [Z|Z].
      * pose proof (div_by_zero (debug be) x y _ _ _ _ S1 S2 Z) as (_ & -> & _).
        now pose proof (div_by_zero (release be) x y _ _ _ _ S1 S2 Z) as (_ & -> & _).
      * eapply (profile2 be checked_div_trunc). intro d.
        exact (checked_div_trunc_spec (Cfg d be) x y _ _ _ _ S1 S2 Z).
    + destruct (Qeq_dec q2 0) as [Z|Z].
      * pose proof (div_by_zero (debug be) x y _ _ _ _ S1 S2 Z) as (_ & _ & -> & _).
        now pose proof (div_by_zero (release be) x y _ _ _ _ S1 S2 Z) as (_ & _ & -> & _).
      * destruct (checked_rem_spec (debug be) x y _ _ _ _ S1 S2 Z) as (z1 & -> & T1).
        destruct (checked_rem_spec (release be) x y _ _ _ _ S1 S2 Z) as (z2 & -> & T2).
        do 2 f_equal. exact (stores_unique _ _ _ _ _ T1 T2).
Qed.

Lemma profiles_mul be x y q1 s1 q2 s2 : stores be x q1 s1 -> stores be y q2 s2 -> s1 + s2 <= 16383 ->
  checked_mul (debug be) x y = checked_mul (release be) x y.
Proof.
  intros S1 S2 L. apply (profile2 be checked_mul x y (q1 * q2) (s1 + s2)). intro d.
  exact (checked_mul_spec (Cfg d be) x y _ _ _ _ S1 S2 L).
Qed.

Lemma profile1 be (f : cfg -> bytes -> outcome bytes) x q s :
  (forall d, result_or_panic be q s (f (Cfg d be) x)) -> f (debug be) x = f (release be) x.
Proof. intro H. exact (result_or_panic_det _ _ _ _ _ (H true) (H false)). Qed.
Lemma profile1t be (f : cfg -> bytes -> outcome bytes) x q s :
  (forall d, exists y, f (Cfg d be) x = Ret y /\ stores be y q s) -> f (debug be) x = f (release be) x.
Proof.
  intro H. destruct (H true) as (y1 & E1 & R1). destruct (H false) as (y2 & E2 & R2).
  unfold debug, release. rewrite E1, E2. f_equal. exact (stores_unique _ _ _ _ _ R1 R2).
Qed.

Lemma profiles_unary be x k : valid be x ->
  num_negate (debug be) x = num_negate (release be) x /\
  num_abs (debug be) x = num_abs (release be) x /\
  num_signum (debug be) x = num_signum (release be) x /\
  num_inc (debug be) x = num_inc (release be) x /\
  num_round (debug be) x k = num_round (release be) x k /\
  num_trunc (debug be) x k = num_trunc (release be) x k /\
  num_ceil (debug be) x = num_ceil (release be) x /\
  num_floor (debug be) x = num_floor (release be) x.
Proof.
  intros [N|(q & s & S)].
  - pose proof (nan_unary (debug be) x k N) as (A1 & A2 & A3 & A4 & A5 & A6 & A7 & A8).
    pose proof (nan_unary (release be) x k N) as (B1 & B2 & B3 & B4 & B5 & B6 & B7 & B8).
    rewrite A1, A2, A3, A4, A5, A6, A7, A8, B1, B2, B3, B4, B5, B6, B7, B8. repeat (split; [reflexivity|]). reflexivity.
  - split; [|split; [|split; [|split; [|split; [|split; [|split]]]]]].
    + eapply (profile1t be num_negate). intro d. exact (num_negate_spec (Cfg d be) x q s S).
    + eapply (profile1t be num_abs). intro d. exact (num_abs_spec (Cfg d be) x q s S).
    + eapply (profile1t be num_signum). intro d. exact (num_signum_spec (Cfg d be) x q s S).
    + eapply (profile1 be num_inc). intro d. exact (num_inc_spec (Cfg d be) x q s S).
    + eapply (profile1 be (fun c x => num_round c x k)). intro d. exact (num_round_spec (Cfg d be) x q s k S).
    + eapply (profile1t be (fun c x => num_trunc c x k)). intro d. exact (num_trunc_spec (Cfg d be) x q s k S).
    + eapply (profile1 be num_ceil). intro d. exact (num_ceil_spec (Cfg d be) x q s S).
    + eapply (profile1 be num_floor). intro d. exact (num_floor_spec (Cfg d be) x q s S).
Qed.
