(** * HeapProg: programs with several NumericBufs own each block exactly once. *)
From Coq Require Import ZArith QArith List Bool Lia Permutation.
From Verif Require Import Base Var Binary Parse Typmod Num Data Heap Spec SpecApi SpecData SpecHeap QDec Digits Strip Arith Codec Make Api3 Laws Mut DataSim DataBuf DataApi HeapSim HeapApi.
Import ListNotations.
Open Scope Z_scope.

Inductive one (c : cfg) : hbuf -> nbuf -> list (addr * list Z) -> Prop :=
| one_null b : hb_ptr b = None -> one c b None []
| one_some b x q pb : hb_ptr b = Some q -> hb_len b = lenz (b_words pb) * 2 -> hb_off b = b_off pb -> bufrel c pb x ->
    one c b (Some x) [(q, b_words pb)].
Inductive all (c : cfg) : list hbuf -> list nbuf -> list (addr * list Z) -> Prop :=
| all_nil : all c [] [] []
| all_cons b x l bs xs L : one c b x l -> all c bs xs L -> all c (b :: bs) (x :: xs) (l ++ L).

Lemma all_app c bs xs L bs' xs' L' : all c bs xs L -> all c bs' xs' L' -> all c (bs ++ bs') (xs ++ xs') (L ++ L').
Proof. induction 1 as [|b x l bs xs L O A IH]; intro H; [exact H|]. cbn [app]. rewrite <- app_assoc. constructor; auto. Qed.
Lemma all_split c l1 b l2 : forall xs L, all c (l1 ++ b :: l2) xs L ->
  exists k1 x k2 L1 l L2, xs = k1 ++ x :: k2 /\ length k1 = length l1 /\ L = L1 ++ l ++ L2 /\ all c l1 k1 L1 /\ one c b x l /\ all c l2 k2 L2.
Proof.
  induction l1 as [|b1 l1 IH]; intros xs L H; cbn [app] in H; inversion H as [|? x l ? xs' L' O A]; subst.
  - exists [], x, xs', [], l, L'. repeat split; auto. constructor.
  - destruct (IH _ _ A) as (k1 & x2 & k2 & L1 & l2' & L2 & -> & E & -> & A1 & O2 & A2).
    exists (x :: k1), x2, k2, (l ++ L1), l2', L2. repeat split; auto.
    + cbn. now f_equal.
    + now rewrite <- app_assoc.
    + now constructor.
Qed.
Lemma all_length c bs xs L : all c bs xs L -> length bs = length xs.
Proof. induction 1; cbn; auto. Qed.
Lemma all_nth c bs xs L i : all c bs xs L ->
  match nth_error bs i with
  | Some b => exists l1 l2 k1 x k2 L1 l L2, bs = l1 ++ b :: l2 /\ xs = k1 ++ x :: k2 /\ length l1 = i /\ length k1 = i /\ L = L1 ++ l ++ L2 /\
      all c l1 k1 L1 /\ one c b x l /\ all c l2 k2 L2 /\ nth_error xs i = Some x
  | None => nth_error xs i = None
  end.
Proof.
  intro A. destruct (nth_error bs i) as [b|] eqn:E.
  - destruct (nth_error_split bs i E) as (l1 & l2 & -> & Hi).
    destruct (all_split c l1 b l2 xs L A) as (k1 & x & k2 & L1 & l & L2 & -> & Ek & -> & A1 & O & A2).
    exists l1, l2, k1, x, k2, L1, l, L2. repeat split; auto; try congruence.
    rewrite nth_error_app2 by lia. replace (i - length k1)%nat with 0%nat by lia. reflexivity.
  - apply nth_error_None in E. apply nth_error_None. rewrite <- (all_length c bs xs L A). exact E.
Qed.

Definition inv (c : cfg) (s : list hbuf * mem) (xs : list nbuf) : Prop := exists L, all c (fst s) xs L /\ rest L (snd s).

Lemma rest_perm R R' m : Permutation R R' -> rest R m -> rest R' m.
Proof. intros P [W Q]. split; [exact W|]. now rewrite Q. Qed.
Lemma brel_one c m R b pb x : brel R m b pb -> bufrel c pb x -> exists q, one c b (Some x) [(q, b_words pb)] /\ rest ((q, b_words pb) :: R) m.
Proof. intros (q & E & A & L & O) B. exists q. split; [now constructor|exact A]. Qed.
Lemma one_brel c m R b x l : one c b (Some x) l -> rest (l ++ R) m -> exists pb, bufrel c pb x /\ brel R m b pb.
Proof. inversion 1 as [|? ? q pb E L O B]; subst. intro K. exists pb. split; [exact B|]. exists q. auto. Qed.

Lemma hstep_sim R c a o b pb x m : bufrel c pb x -> brel R m b pb -> oprel R (h_step c a o (b, m)) (p_step c a o (Some pb)).
Proof.
  intros (v & V & H & E) B. destruct o as [| |k|k|t|]; cbn [h_step p_step].
  - now apply (negate_mut_hsim R c a pb v).
  - now apply (abs_mut_hsim R c a pb v).
  - now apply (round_mut_hsim R c a k pb v).
  - now apply (trunc_mut_hsim R c a k pb v).
  - now apply (typmod_mut_hsim R c a t pb v).
  - destruct (clone_hsim R c a pb b m B) as (q & Eq & S). pose proof B as (q' & Eq' & A & L & O). assert (q' = q) as -> by congruence.
    unfold msim in S. destruct (h_clone c a b m) as [[y|w| |] m'], (p_clone c a pb) as [b'|w'| |]; cbn [fst snd] in S; try contradiction.
    + destruct S as (q2 & E2 & [W2 P2] & L2 & O2).
      destruct (drop_hsim ((q2, b_words b') :: R) (Some pb) b m') as (m2 & -> & K).
      { exists q. split; [exact Eq|]. split; [|auto]. split; [exact W2|]. rewrite P2. apply perm_swap. }
      split; [reflexivity|]. intros _. cbn. exists q2. split; [exact E2|]. split; [exact K|]. auto.
    + destruct S as [-> K]. split; [reflexivity|]. intros _. cbn. exists q. split; [exact Eq|]. split; [exact K|]. auto.
    + split; [reflexivity|]. intro Q. destruct (clean_ub Q).
    + split; [reflexivity|]. intro Q. destruct (clean_div Q).
Qed.

Lemma obrel_one c m R b pb x : obrel R m b pb -> DataApi.optrel c pb x -> exists l, one c b x l /\ rest (l ++ R) m.
Proof.
  destruct pb as [pb|], x as [x|]; cbn; try contradiction.
  - intros B K. destruct (brel_one c m R b pb x B K) as (q & O & Q). exists [(q, b_words pb)]. auto.
  - intros [E K] _. exists []. split; [now constructor|exact K].
Qed.

Lemma set_nth_mid {A} (l m : list A) x y i : length l = i -> set_nth (l ++ x :: m) i y = l ++ y :: m.
Proof. intros <-. apply set_nth_app. Qed.
Lemma without_mid {A} (l m : list A) x i : length l = i -> without i (l ++ x :: m) = l ++ m.
Proof.
  intros <-. unfold without. rewrite firstn_app_len. f_equal.
  replace (S (length l)) with (length (l ++ [x])) by (rewrite app_length; cbn; lia).
  replace (l ++ x :: m) with ((l ++ [x]) ++ m) by (now rewrite <- app_assoc). apply skipn_app_len.
Qed.
Lemma without_none {A} (l : list A) i : nth_error l i = None -> without i l = l.
Proof.
  intro H. apply nth_error_None in H. unfold without. rewrite firstn_all2 by lia. rewrite skipn_all2 by lia. apply app_nil_r.
Qed.

Lemma inv_push c bs m xs L b x l : all c bs xs L -> one c b x l -> rest (l ++ L) m -> inv c (bs ++ [b], m) (xs ++ [x]).
Proof.
  intros A O K. exists (L ++ l ++ []). split.
  - apply all_app; [exact A|]. constructor; [exact O|constructor].
  - cbn [snd]. rewrite app_nil_r. apply (rest_perm (l ++ L)); [apply Permutation_app_comm|exact K].
Qed.

Lemma number_fine n : Forall (fun d => 0 <= d <= 9999) (digs n) /\ 0 <= scale n /\ (exists k : Z, (value n * ten ^ scale n == inject_Z k)%Q) -> fine (var_of n).
Proof.
  intros (D & S & k & M0). left. change (var_of n) with (of_number n). split; [exact D|]. split; [unfold of_number; cbn; destruct (neg n); discriminate|].
  split; [|exact S]. exists k. rewrite vval_of_number. exact M0.
Qed.

Lemma exec_sim c a k s xs : cmd_ok c k -> inv c s xs ->
  fst (h_exec c a k s) = fst (s_exec c k xs) /\ clean (fst (s_exec c k xs)) /\ inv c (snd (h_exec c a k s)) (snd (s_exec c k xs)).
Proof.
  intros Ok (L & A & K). destruct s as [bs m]. cbn [fst snd] in *. destruct k as [x|n|i o|i|i]; cbn [h_exec s_exec].
  - destruct (to_owned_sim c a x Ok) as (b & Eb & Rb). pose proof (copy_hsim L c a x m K) as S. rewrite Eb in S. unfold msim in S.
    destruct (h_copy c a x m) as [[hb|w| |] m']; cbn [fst snd] in S; try contradiction. cbn [push fst snd].
    split; [reflexivity|]. split; [apply clean_ret|]. destruct (brel_one c m' L hb b x S Rb) as (q & O & Q). now apply (inv_push c bs m' xs L hb (Some x) _ A O).
  - pose proof (number_fine n Ok) as F. pose proof (computed_hsim L c a (var_of n) m K) as S. pose proof (computed_sim c a (var_of n) F) as P.
    pose proof (make_clean c (var_of n) F) as Cl. unfold msim in S.
    destruct (make_result c (var_of n)) as [o'|w| |]; [| |destruct (clean_ub Cl)|destruct (clean_div Cl)].
    + destruct (p_computed c a (var_of n)) as [o| | |]; cbn [sim] in P; try contradiction.
      destruct (h_computed c a (var_of n) m) as [[ho|w| |] m']; cbn [fst snd] in S; try contradiction.
      destruct ho as [hb|], o as [pb|]; cbn [optrel] in S; try contradiction; destruct o' as [x|]; cbn [DataApi.optrel] in P; try contradiction.
      * cbn [fst snd]. split; [reflexivity|]. split; [apply clean_ret|]. destruct (brel_one c m' L hb pb x S P) as (q & O & Q).
        now apply (inv_push c bs m' xs L hb (Some x) _ A O).
      * cbn [fst snd]. split; [reflexivity|]. split; [apply clean_ret|]. now exists L.
    + destruct (p_computed c a (var_of n)) as [o|w2| |]; cbn [sim] in P; try contradiction. subst w2.
      destruct (h_computed c a (var_of n) m) as [[ho|w2| |] m']; cbn [fst snd] in S; try contradiction. destruct S as [-> S].
      cbn [fst snd again]. split; [reflexivity|]. split; [right; now exists w|]. now exists L.
  - pose proof (all_nth c bs xs L i A) as N. destruct (nth_error bs i) as [b|].
    2:{ rewrite N. cbn [fst snd]. split; [reflexivity|]. split; [apply clean_ret|]. now exists L. }
    destruct N as (l1 & l2 & k1 & x & k2 & L1 & l & L2 & Eb & Ex & H1 & H2 & EL & A1 & O & A2 & Nx). rewrite Nx.
    assert (K' : rest (l ++ L1 ++ L2) m) by (apply (rest_perm L); [subst L; apply Permutation_app_swap_app|exact K]).
    destruct O as [b E|b x q pb Eq Ln Of B].
    { rewrite E. cbn [fst snd]. split; [reflexivity|]. split; [apply clean_ret|]. exists L. auto. }
    rewrite Eq. pose proof (hstep_sim (L1 ++ L2) c a o b pb x m B) as S.
    assert (Br : brel (L1 ++ L2) m b pb) by (exists q; auto). specialize (S Br).
    pose proof (step_sim c a o pb x B) as [S1 S2]. pose proof (step_clean c o x (bufrel_valid c pb x B)) as Cl.
    destruct (step c o (Some x)) as [r x']. destruct (p_step c a o (Some pb)) as [r2 b2]. cbn [fst snd] in *. subst r2.
    destruct (h_step c a o (b, m)) as [r2 [hb' m']]. destruct S as [S3 S4]. cbn [fst snd] in *. subst r2.
    split; [reflexivity|]. split; [exact Cl|]. destruct (obrel_one c m' _ hb' b2 x' (S4 Cl) S2) as (l' & O' & K2).
    subst bs xs. rewrite (set_nth_mid l1 l2 b hb' i H1), (set_nth_mid k1 k2 _ x' i H2). exists (L1 ++ l' ++ L2). cbn [fst snd]. split.
    + apply all_app; [exact A1|]. now constructor.
    + apply (rest_perm (l' ++ L1 ++ L2)); [apply Permutation_app_swap_app|exact K2].
  - pose proof (all_nth c bs xs L i A) as N. destruct (nth_error bs i) as [b|].
    2:{ rewrite N. cbn [fst snd]. split; [reflexivity|]. split; [apply clean_ret|]. now exists L. }
    destruct N as (l1 & l2 & k1 & x & k2 & L1 & l & L2 & Eb & Ex & H1 & H2 & EL & A1 & O & A2 & Nx). rewrite Nx.
    assert (K' : rest (l ++ L1 ++ L2) m) by (apply (rest_perm L); [subst L; apply Permutation_app_swap_app|exact K]).
    destruct O as [b E|b x q pb Eq Ln Of B].
    { rewrite E. cbn [fst snd]. split; [reflexivity|]. split; [apply clean_ret|]. exists L. auto. }
    rewrite Eq. assert (Br : brel (L1 ++ L2) m b pb) by (exists q; auto).
    destruct (clone_hsim (L1 ++ L2) c a pb b m Br) as (q' & Eq' & S). assert (q' = q) as -> by congruence.
    pose proof (clone_sim c a pb x B) as Cs. destruct (copies c x (bufrel_valid c pb x B)) as [_ Cc]. rewrite Cc in Cs.
    destruct (p_clone c a pb) as [pb'| | |]; cbn [sim] in Cs; try contradiction. unfold msim in S.
    destruct (h_clone c a b m) as [[hb'|w| |] m']; cbn [fst snd] in S; try contradiction. cbn [push fst snd].
    split; [reflexivity|]. split; [apply clean_ret|]. destruct (brel_one c m' _ hb' pb' x S Cs) as (q2 & O2 & K2).
    apply (inv_push c bs m' xs L hb' (Some x) _ A O2).
    apply (rest_perm (((q2, b_words pb') :: (q, b_words pb) :: L1 ++ L2))); [|exact K2]. subst L. cbn [app]. apply perm_skip. apply Permutation_middle.
  - pose proof (all_nth c bs xs L i A) as N. destruct (nth_error bs i) as [b|].
    2:{ rewrite (without_none xs i N). cbn [fst snd]. split; [reflexivity|]. split; [apply clean_ret|]. now exists L. }
    destruct N as (l1 & l2 & k1 & x & k2 & L1 & l & L2 & Eb & Ex & H1 & H2 & EL & A1 & O & A2 & Nx).
    assert (K' : rest (l ++ L1 ++ L2) m) by (apply (rest_perm L); [subst L; apply Permutation_app_swap_app|exact K]).
    assert (Ob : exists pb, obrel (L1 ++ L2) m b pb).
    { destruct O as [b E|b x q pb Eq Ln Of B]; [exists None; now split|exists (Some pb), q; auto]. }
    destruct Ob as [pb Ob]. destruct (drop_hsim (L1 ++ L2) pb b m Ob) as (m' & -> & K2). cbn [fst snd again].
    split; [reflexivity|]. split; [apply clean_ret|]. subst bs xs.
    rewrite (without_mid l1 l2 b i H1), (without_mid k1 k2 x i H2). exists (L1 ++ L2). split; [now apply all_app|exact K2].
Qed.

Lemma prog_sim c h : forall s xs, Forall (cmd_ok c) (map fst h) -> inv c s xs ->
  fst (h_prog c h s) = fst (s_prog c (map fst h) xs) /\ Forall clean (fst (s_prog c (map fst h) xs)) /\
  inv c (snd (h_prog c h s)) (snd (s_prog c (map fst h) xs)).
Proof.
  induction h as [|[k a] t IH]; intros s xs Ok I; [cbn; auto|]. cbn [map fst] in Ok. inversion Ok as [|? ? O1 O2]; subst.
  cbn [h_prog s_prog map fst]. destruct (exec_sim c a k s xs O1 I) as (E & Cl & I').
  destruct (h_exec c a k s) as [r s'], (s_exec c k xs) as [r' xs']. cbn [fst snd] in *. subst r'.
  destruct (IH s' xs' O2 I') as (E2 & Cl2 & I2). destruct (h_prog c t s') as [rs s2], (s_prog c (map fst t) xs') as [rs' xs2].
  cbn [fst snd] in *. subst rs'. auto.
Qed.

Lemma all_pointers c bs xs L : all c bs xs L -> map fst L = pointers bs.
Proof.
  induction 1 as [|b x l bs xs L O A IH]; [reflexivity|]. cbn [pointers flat_map]. rewrite map_app, IH. f_equal.
  destruct O as [b E|b x q pb Eq Ln Of B]; [now rewrite E|now rewrite Eq].
Qed.
Lemma all_shown c bs xs L m : all c bs xs L -> forall R, rest (R ++ L) m -> Forall2 (shown c m) bs xs.
Proof.
  induction 1 as [|b x l bs xs L O A IH]; intros R K; constructor.
  - destruct O as [b E|b x q pb Eq Ln Of B]; cbn [shown]; [exact E|].
    assert (Br : brel (R ++ L) m b pb).
    { exists q. split; [exact Eq|]. split; [|auto]. destruct K as [W P]. split; [exact W|]. rewrite P. symmetry. apply Permutation_middle. }
    unfold h_deref. rewrite (hview_ok _ m b pb Br). cbn [bind]. now apply bufrel_bytes.
  - apply (IH (R ++ l)). now rewrite <- app_assoc.
Qed.

Lemma programs c h : Forall (cmd_ok c) (map fst h) ->
  let '(rs, (bs, m)) := h_prog c h ([], no_memory) in let '(rs', xs) := s_prog c (map fst h) [] in
  rs = rs' /\ Forall (fun r => (exists y, r = Ret y) \/ (exists w, r = Panic w)) rs /\
  Forall2 (shown c m) bs xs /\ Permutation (map fst (blocks m)) (pointers bs) /\ NoDup (pointers bs).
Proof.
  intro Ok. assert (I0 : inv c ([], no_memory) []).
  { exists []. split; [constructor|]. split; [|constructor]. split; constructor. }
  destruct (prog_sim c h _ _ Ok I0) as (E & Cl & L & A & K). destruct (h_prog c h ([], no_memory)) as [rs [bs m]], (s_prog c (map fst h) []) as [rs' xs].
  cbn [fst snd] in *. subst rs'. split; [reflexivity|]. split; [exact Cl|]. split; [exact (all_shown c bs xs L m A [] K)|].
  rewrite <- (all_pointers c bs xs L A). destruct K as [[N _] P]. apply (Permutation_map fst) in P. split; [exact P|]. exact (Permutation_NoDup P N).
Qed.

Lemma no_leak c h : Forall (cmd_ok c) (map fst h) ->
  let '(rs, (bs, m)) := h_prog c h ([], no_memory) in bs = [] -> blocks m = [].
Proof.
  intro Ok. pose proof (programs c h Ok) as P. destruct (h_prog c h ([], no_memory)) as [rs [bs m]], (s_prog c (map fst h) []) as [rs' xs].
  destruct P as (_ & _ & _ & P & _). intros ->. cbn in P. destruct (blocks m); [reflexivity|]. apply Permutation_sym, Permutation_nil in P. discriminate.
Qed.
