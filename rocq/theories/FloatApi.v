(** * FloatApi: from a numeric to a float, and back. *)
From Coq Require Import ZArith QArith Qabs Qpower Lia Lqa Bool List.
From Verif Require Import Base Var Binary Format Parse Convert Spec SpecApi SpecText SpecLibm QDec Digits Strip Make Codec Text ParseApi Api3 FormatText FormatApi ConvertApi SpecDouble Flt Float FloatGrid FloatF32 FloatText.
Import ListNotations.
Open Scope Z_scope.

Lemma canon_not_nan v : canon v -> is_nan v = false.
Proof. intro C. pose proof (canon_nan v C). unfold is_nan. destruct (sign v); [reflexivity|reflexivity|congruence]. Qed.

Lemma var_to_f64_spec c pf v : strtod_sound (p_strtod pf) -> canon v ->
  exists d, var_to_f64 c pf v = Ret (inl d) /\ rounds_to binary64 (vval v) d.
Proof.
  intros SS C. unfold var_to_f64. rewrite (canon_not_nan v C). destruct (write_spec c v C) as (t & -> & P). cbn [bind].
  destruct (SS t _ _ P) as (d & -> & R). exists d. split; [reflexivity|exact R].
Qed.

Theorem to_f64_spec c pf x q s : strtod_sound (p_strtod pf) -> stores (be_varlen c) x q s ->
  exists d, num_to_f64 c pf x = Ret (inl d) /\ buf_to_f64 c pf x = Ret (inl d) /\ rounds_to binary64 q d.
Proof.
  intros SS H. destruct (stores_elim _ _ _ _ H) as (v & C & -> & V & <-). unfold num_to_f64, buf_to_f64.
  rewrite (as_var_spec c v (canon_storable v C)), (into_var_spec c v (canon_storable v C)). cbn [bind].
  destruct (var_to_f64_spec c pf v SS C) as (d & E & R). exists d. split; [exact E|]. split; [exact E|].
  destruct d as [|n|f]; cbn [rounds_to] in *; [exact R| |].
  - destruct R as (f & [N1 N2] & R). exists f. split; [|exact R]. split; [exact N1|]. intros g G. specialize (N2 g G). rewrite V in N2. exact N2.
  - destruct R as ([N1 N2] & R). split; [|exact R]. split; [exact N1|]. intros g G. specialize (N2 g G). rewrite V in N2. exact N2.
Qed.

Lemma to_float_nan c pf x : stores_nan (be_varlen c) x ->
  num_to_f64 c pf x = Ret (inl FNaN) /\ buf_to_f64 c pf x = Ret (inl FNaN) /\
  num_to_f32 c pf x = Ret (inl FNaN) /\ buf_to_f32 c pf x = Ret (inl FNaN).
Proof.
  intros ->. unfold num_to_f64, buf_to_f64, num_to_f32, buf_to_f32. rewrite nan_as_var, nan_into_var. cbn [bind]. repeat split; reflexivity.
Qed.

(** ** f32 *)
Lemma as_f32_inf f : is_infinite (as_f32 (FNum f)) = true <-> (2 ^ 128 - 2 ^ 103 <= Qabs f)%Q.
Proof.
  pose proof (to_grid_overflow binary32 f ltac:(cbn; lia) ltac:(cbn; lia)) as H. cbn [f_emax f_prec binary32] in H.
  change (128 - 24 - 1) with 103 in H. cbn [as_f32]. unfold to_format. cbn [f_emax binary32].
  change (2 ^ 128)%Q with (p2 128). change (2 ^ 103)%Q with (p2 103). rewrite <- H.
  destruct (Qle_bool (p2 128) (Qabs (to_grid binary32 f))) eqn:E; cbn [is_infinite].
  - apply Qle_bool_iff in E. tauto.
  - split; [discriminate|]. intro K. apply Qle_bool_iff in K. congruence.
Qed.

Lemma as_f32_zero f : is_zero_f (as_f32 (FNum f)) = true <-> (Qabs f <= 2 ^ (-150))%Q.
Proof.
  pose proof (to_grid_underflow binary32 f ltac:(cbn; lia)) as H. cbn [f_emin binary32] in H. change (-149 - 1) with (-150) in H.
  cbn [as_f32]. unfold to_format. cbn [f_emax binary32]. change (2 ^ (-150))%Q with (p2 (-150)). rewrite <- H.
  destruct (Qle_bool (2 ^ 128) (Qabs (to_grid binary32 f))) eqn:E; cbn [is_zero_f].
  - split; [discriminate|]. intro K. apply Qle_bool_iff in E. rewrite K in E. change (Qabs 0) with 0%Q in E. pose proof (p2_pos 128). change (2 ^ 128)%Q with (p2 128) in E. lra.
  - rewrite Z.eqb_eq. apply num_zero.
Qed.

Theorem to_f32_spec c pf x q s : strtod_sound (p_strtod pf) -> stores (be_varlen c) x q s ->
  exists d r, rounds_to binary64 q d /\ num_to_f32 c pf x = Ret r /\ buf_to_f32 c pf x = Ret r /\
    match d with
    | FNum f => (f32_lost f /\ r = inr COverflow) \/ (~ f32_lost f /\ exists g, r = inl g /\ rounds_to binary32 f g)
    | _ => r = inl d
    end.
Proof.
  intros SS H. destruct (to_f64_spec c pf x q s SS H) as (d & E1 & E2 & R).
  destruct (stores_elim _ _ _ _ H) as (v & C & -> & V & <-). unfold num_to_f64, buf_to_f64, num_to_f32, buf_to_f32 in *.
  rewrite (as_var_spec c v (canon_storable v C)), (into_var_spec c v (canon_storable v C)) in *. cbn [bind] in *.
  unfold var_to_f64, var_to_f32 in *. rewrite (canon_not_nan v C) in *. destruct (write_spec c v C) as (t & Et & P). rewrite Et in *. cbn [bind] in *.
  destruct (p_strtod pf t) as [d'|]; [|discriminate]. assert (d' = d) by congruence. subst d'. exists d.
  destruct d as [|n|f]; [destruct R| |].
  - exists (inl (FInf n)). cbn. auto.
  - assert (Dec : {f32_lost f} + {~ f32_lost f}).
    { destruct (is_infinite (as_f32 (FNum f))) eqn:I; [left; left; now apply as_f32_inf|].
      destruct (is_zero_f (as_f32 (FNum f))) eqn:Zf.
      - destruct (Z.eq_dec (Qnum f) 0) as [Z0|N].
        + right. intros [A|[A _]]; [apply as_f32_inf in A; congruence|]. apply A. now apply num_zero.
        + left. right. split; [now rewrite <- num_zero|now apply as_f32_zero].
      - right. intros [A|[_ A]]; [apply as_f32_inf in A; congruence|apply as_f32_zero in A; congruence]. }
    set (b := (is_infinite (as_f32 (FNum f)) && negb (is_infinite (FNum f))) || (is_zero_f (as_f32 (FNum f)) && negb (is_zero_f (FNum f)))).
    assert (B : b = true <-> f32_lost f).
    { unfold b, f32_lost. rewrite orb_true_iff, !andb_true_iff, !negb_true_iff. rewrite as_f32_inf, as_f32_zero. cbn [is_infinite is_zero_f].
      rewrite Z.eqb_neq. pose proof (num_zero f). tauto. }
    exists (if b then inr COverflow else inl (as_f32 (FNum f))). split; [exact R|].
    split; [destruct b; reflexivity|]. split; [destruct b; reflexivity|].
    destruct Dec as [L|L].
    + left. split; [exact L|]. apply B in L. now rewrite L.
    + right. split; [exact L|]. exists (as_f32 (FNum f)). split; [destruct b; [destruct L; now apply B|reflexivity]|].
      apply to_format_rounds. reflexivity.
Qed.
