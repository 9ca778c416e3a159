(** * FloatSample: a platform that meets the assumptions of SpecDouble.v. *)
From Coq Require Import ZArith QArith Qabs Qpower Lia Lqa Bool List.
From Verif Require Import Base Var Binary Format Parse Convert Num Spec SpecApi SpecText SpecLibm QDec Make Text ParseApi FormatText FormatApi Normalize Transc Sci LibmSample SpecDouble Flt Float FloatGrid FloatText.
Import ListNotations.
Open Scope Z_scope.

(** ** strtod *)
Definition read_plain (t : list Z) : Q :=
  let '(n, u) := match t with b :: u => if b =? 45 then (true, u) else (false, t) | [] => (false, []) end in
  let '(ip, u) := eat_digits u in
  let fp := match u with _ :: w => fst (eat_digits w) | [] => [] end in
  ((if n then -1 else 1) * inject_Z (number_of (ip ++ fp)) * ten ^ (- len fp))%Q.

Lemma eat_all d : Forall digit_char d -> eat_digits d = (d, []).
Proof. intro F. rewrite <- (app_nil_r d) at 1. apply eat_digits_app; [exact F|discriminate]. Qed.

Lemma read_plain_spec t q s : plain_text t q s -> (read_plain t == q)%Q.
Proof.
  intros (n & ip & fp & -> & Fi & Ff & Li & Lf & Hn & Hq).
  assert (Ni : exists b r, ip = b :: r /\ digit_char b).
  { destruct Li as [->|(b & r & -> & _)]; [exists 48, []; split; [reflexivity|unfold digit_char; lia]|]. exists b, r. split; [reflexivity|now inversion Fi]. }
  destruct Ni as (b & r & Eip & Db).
  assert (E1 : match (if n then [45] else []) ++ ip ++ (if s =? 0 then [] else 46 :: fp) with
               | b :: u => if b =? 45 then (true, u) else (false, (if n then [45] else []) ++ ip ++ (if s =? 0 then [] else 46 :: fp)) | [] => (false, []) end
               = (n, ip ++ (if s =? 0 then [] else 46 :: fp))).
  { destruct n; [reflexivity|]. cbn [app]. rewrite Eip. cbn [app]. destruct (Z.eqb_spec b 45); [unfold digit_char in Db; lia|reflexivity]. }
  unfold read_plain. rewrite E1.
  assert (R : (Qabs q == inject_Z (number_of (ip ++ fp)) * ten ^ (- len fp))%Q) by (rewrite Lf; exact Hq).
  assert (G : ((if n then -1 else 1) * inject_Z (number_of (ip ++ fp)) * ten ^ (- len fp) == q)%Q).
  { rewrite <- Qmult_assoc, <- R. destruct n.
    - rewrite Qabs_neg; [ring|]. apply Qlt_le_weak. now apply Hn.
    - rewrite Qabs_pos; [ring|]. destruct (Qlt_le_dec q 0) as [K|K]; [apply Hn in K; discriminate|exact K]. }
  destruct (Z.eqb_spec s 0) as [->|Ns].
  - assert (fp = []) by (destruct fp; [reflexivity|rewrite len_cons in Lf; pose proof (len_nonneg fp); lia]). subst fp.
    rewrite app_nil_r, eat_all by assumption. cbn [fst]. exact G.
  - rewrite eat_digits_app; [|exact Fi|intros c0 w X; injection X as <- _; unfold digit_char; lia].
    rewrite eat_all by assumption. cbn [fst]. exact G.
Qed.

Lemma nearest_ext F q q' f : (q == q')%Q -> nearest F q f -> nearest F q' f.
Proof. intros E [A B]. split; [exact A|]. intros g G. specialize (B g G). rewrite E in B. exact B. Qed.
Lemma rounds_ext F q q' r : (q == q')%Q -> rounds_to F q r -> rounds_to F q' r.
Proof.
  intro E. destruct r as [|n|f]; cbn; [trivial| |].
  - intros (f & N & R). exists f. split; [now apply (nearest_ext F q)|exact R].
  - intros [N R]. split; [now apply (nearest_ext F q)|exact R].
Qed.

Definition sample_strtod (t : list Z) : option fval := Some (to_format binary64 (read_plain t)).
Lemma sample_strtod_sound : strtod_sound sample_strtod.
Proof.
  intros t q s P. exists (to_format binary64 (read_plain t)). split; [reflexivity|].
  apply (rounds_ext _ _ _ _ (read_plain_spec t q s P)). now apply to_format_rounds.
Qed.

(** ** snprintf *)
Fixpoint find10 (n : nat) (e : Z) (f : Q) : Z :=
  match n with O => e | S n' => if Qle_bool (ten ^ e) (Qabs f) then e else find10 n' (e - 1) f end.

Lemma find10_spec n : forall e f, (p10 (e - Z.of_nat n) <= Qabs f)%Q -> (Qabs f < p10 (e + 1))%Q ->
  (p10 (find10 n e f) <= Qabs f)%Q /\ (Qabs f < p10 (find10 n e f + 1))%Q.
Proof.
  induction n as [|n IH]; intros e f L U; cbn [find10].
  - replace (e - Z.of_nat 0) with e in L by lia. split; assumption.
  - change (ten ^ e)%Q with (p10 e). destruct (Qle_bool (p10 e) (Qabs f)) eqn:E.
    + apply Qle_bool_iff in E. split; assumption.
    + apply IH; [replace (e - 1 - Z.of_nat n) with (e - Z.of_nat (S n)) by lia; exact L|].
      replace (e - 1 + 1) with e by lia. apply Qnot_le_lt. intro K. apply Qle_bool_iff in K. congruence.
Qed.

Definition exp10 (f : Q) : Z := find10 700 320 f.
Lemma exp10_spec f : (p10 (-380) <= Qabs f)%Q -> (Qabs f < p10 321)%Q -> (p10 (exp10 f) <= Qabs f)%Q /\ (Qabs f < p10 (exp10 f + 1))%Q.
Proof. intros L U. apply find10_spec; [exact L|exact U]. Qed.

Definition c0 := Cfg false false.
Definition m0 : libm := Libm (lgd 1000000000) (fun q => q) (fun _ => None).

Definition print_dec (k : Z) (plain : Z -> bool) (x : Z) : list Z :=
  match from_str c0 (int_text k 400) with
  | Ret (inl b) =>
      match (if plain x then num_normalize c0 b else num_sci c0 m0 b true) with Ret t => t | _ => [] end
  | _ => []
  end.

Lemma print_dec_spec k (plain : Z -> bool) x : (Qabs (dec k (-400)) < limit)%Q -> k <> 0 ->
  if plain x then shortest_text (print_dec k plain x) (dec k (-400)) else sci_text (print_dec k plain x) (dec k (-400)) 101.
Proof.
  intros B N. destruct (literal_int_text k 400 ltac:(lia) B) as (l & L1 & L2 & L3 & L4).
  destruct (parse_complete c0 _ _ l (blank_spaced _) L1 L2) as (b & Eb & Sb). apply (stores_ext _ _ _ _ _ L3) in Sb. rewrite L4 in Sb.
  unfold print_dec. rewrite Eb. destruct (plain x).
  - destruct (num_normalize_spec c0 b _ _ Sb) as (t & -> & P). exact P.
  - destruct (sci_spec c0 m0 b _ _ true (lgd_sound 1000000000 ltac:(lia)) Sb) as [A _].
    + rewrite dec_eq0. exact N.
    + destruct A as (t & -> & P); [|exact P]. change (ten ^ (-1001))%Q with (p10 (-1001)).
      apply Qle_trans with (p10 (-400)); [apply p10_le; lia|]. rewrite Qabs_dec, <- dec_1. apply dec_le_iff. lia.
Qed.

Definition sample_snprintf (p : Z) (f : Q) : list Z :=
  if Qnum f =? 0 then [48]
  else
    let e := exp10 f in
    let k := rneq (f * ten ^ (p - 1 - e)) in
    let k' := k * 10 ^ (e - p + 1 + 400) in
    let x := exp10 (dec k' (-400)) in
    print_dec k' (fun x => (-4 <=? x) && (x <? p)) x.

Lemma plain_ext_s t q q' : (q == q')%Q -> shortest_text t q -> shortest_text t q'.
Proof.
  intros E (s & P & M). exists s. split; [now apply (plain_ext t q)|]. intros t' s' P'. apply (M t'). apply (plain_ext t' q'); [now symmetry|exact P'].
Qed.

Lemma sample_snprintf_sound : snprintf_sound sample_snprintf.
Proof.
  intros p f Hp Fin. unfold sample_snprintf. destruct (Z.eqb_spec (Qnum f) 0) as [Z0|N].
  { left. split; [now apply num_zero|now left]. }
  assert (NZ : ~ (f == 0)%Q) by (rewrite <- num_zero; exact N). right. split; [exact NZ|].
  destruct Fin as [G U]. pose proof (grid_low binary64 f G NZ) as Lo. cbn [f_emin f_emax binary64] in Lo, U. change (2 ^ 1024)%Q with (p2 1024) in U.
  pose proof (Qlt_trans _ _ _ U p10_p2_hi) as U2. pose proof (Qlt_le_weak _ _ (Qlt_le_trans _ _ _ p10_p2_lo Lo)) as L2.
  destruct (exp10_spec f (Qle_trans _ _ _ (p10_le (-380) (-324) ltac:(lia)) L2) (Qlt_trans _ _ _ U2 (p10_lt 309 321 ltac:(lia)))) as [E1 E2].
  pose proof (finite_range f (exp10 f) (conj G U) E1 E2) as Re. set (e := exp10 f) in *.
  pose proof (rneq_err (f * ten ^ (p - 1 - e))) as E3. set (k := rneq _) in *. set (k' := k * 10 ^ (e - p + 1 + 400)).
  assert (Hr : (dec k' (-400) == inject_Z k * ten ^ (e - p + 1))%Q).
  { unfold k'. rewrite dec_shift by lia. replace (-400 + (e - p + 1 + 400)) with (e - p + 1) by lia. reflexivity. }
  destruct (significant_bounds p f _ e k ltac:(lia) E1 E2 E3 Hr) as (Kb & B1 & B2 & _).
  assert (Nk : k' <> 0). { unfold k'. pose proof (Z.pow_pos_nonneg 10 (p - 1) ltac:(lia) ltac:(lia)). pose proof (Z.pow_pos_nonneg 10 (e - p + 1 + 400) ltac:(lia) ltac:(lia)). nia. }
  assert (Lim : (Qabs (dec k' (-400)) < limit)%Q) by (eapply Qle_lt_trans; [exact B2|]; rewrite limit_p10; apply p10_lt; lia).
  exists (dec k' (-400)), (exp10 (dec k' (-400))). split; [right; exists e, k; auto|].
  destruct (exp10_spec (dec k' (-400))) as [X1 X2].
  { eapply Qle_trans; [|exact B1]. apply p10_le. lia. }
  { eapply Qle_lt_trans; [exact B2|]. apply p10_lt. lia. }
  split; [exact X1|]. split; [exact X2|].
  exact (print_dec_spec k' (fun x => (-4 <=? x) && (x <? p)) (exp10 (dec k' (-400))) Lim Nk).
Qed.

Definition sample_platform : platform := Platform sample_snprintf sample_strtod.
