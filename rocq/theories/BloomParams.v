(** The number of hash functions, their salts and the table size of a Bloom filter. *)
From Coq Require Import List NArith ZArith Bool Lia Arith Floats.SpecFloat.
From Verif Require Import Base BaseFacts Murmur Tlv Bloom SpecBloom BloomFacts.
Import ListNotations.
Local Open Scope N_scope.

(** ** Salts *)
Fixpoint distinct (l : list N) : bool :=
  match l with [] => true | x :: r => negb (x =? 0) && negb (existsb (N.eqb x) r) && distinct r end.
Lemma existsb_eqb_In x l : existsb (N.eqb x) l = true <-> In x l.
Proof.
  rewrite existsb_exists. split; [intros (y & H & E); apply N.eqb_eq in E; subst; exact H|]. intros H. exists x. rewrite N.eqb_refl. auto.
Qed.
Lemma distinct_ok l : distinct l = true -> NoDup l /\ ~ In 0 l.
Proof.
  induction l as [|x l IH]; cbn [distinct]; [split; [constructor|auto]|]. intros H. apply andb_prop in H as [H H2]. apply andb_prop in H as [H0 H1].
  destruct (IH H2) as [A B]. apply negb_true_iff in H0, H1. apply N.eqb_neq in H0. split.
  - constructor; [|exact A]. intros X. apply existsb_eqb_In in X. congruence.
  - intros [X|X]; [congruence|auto].
Qed.
(** all 128 cases of bloom-filter.cpp 339-356 *)
Lemma salts_sweep : forallb (fun c => distinct (mix_salts (firstn c predef_salt))) (seq 0 129) = true.
Proof. vm_cast_no_check (eq_refl true). Qed.
Lemma rand_salts_ok L f : forall i c l r, rand_salts L f i c l = Ok r -> (length l <= c)%nat -> NoDup l -> ~ In 0 l ->
  length r = c /\ NoDup r /\ ~ In 0 r.
Proof.
  induction f as [|f IH]; intros i c l r; cbn [rand_salts]; destruct (Nat.leb_spec c (length l)) as [E|E]; intros H Hl A B; try discriminate;
    try (injection H as <-; split; [lia|auto]).
  set (s := w32 _) in *. destruct ((s =? 0) || existsb (N.eqb s) l) eqn:X; [eapply IH; eauto|].
  apply orb_false_iff in X as [X1 X2]. apply N.eqb_neq in X1.
  assert (~ In s l) as Hs by (intros Y; apply existsb_eqb_In in Y; congruence).
  eapply IH; [exact H|rewrite app_length; cbn [length]; lia| |].
  - apply NoDup_rev in A. rewrite <- (rev_involutive (l ++ [s])). apply NoDup_rev. rewrite rev_app_distr. cbn. constructor; [|exact A].
    intros Y. apply in_rev in Y. contradiction.
  - intros Y. apply in_app_or in Y as [Y|[Y|[]]]; [auto|]. congruence.
Qed.
Lemma generate_salts_ok L c l : generate_salts L c = Ok l -> length l = N.to_nat c /\ NoDup l /\ ~ In 0 l.
Proof.
  unfold generate_salts. destruct (N.leb_spec c 128) as [E|E].
  - intros [= <-]. split; [rewrite mix_salts_length, firstn_length_le; [reflexivity|cbn [length predef_salt]; lia]|].
    apply distinct_ok. pose proof salts_sweep as S. rewrite forallb_forall in S. apply S. apply in_seq. lia.
  - intros H. apply rand_salts_ok in H; [exact H|cbn [length predef_salt]; lia| |].
    + apply (distinct_ok predef_salt). vm_compute. reflexivity.
    + apply (distinct_ok predef_salt). vm_compute. reflexivity.
Qed.

(** ** The least table *)
Lemma Z_compare_trans_lt a b c : (a ?= b)%Z = Lt -> (b ?= c)%Z = Lt -> (a ?= c)%Z = Lt.
Proof. rewrite !Z.compare_lt_iff. lia. Qed.
Lemma SFltb_trans a b c : SFltb a b = true -> SFltb b c = true -> SFltb a c = true.
Proof.
  unfold SFltb, SFcompare.
  destruct a as [[|]|[|]| |[|] m1 e1], b as [[|]|[|]| |[|] m2 e2], c as [[|]|[|]| |[|] m3 e3]; try discriminate; auto;
    destruct (Z.compare_spec e1 e2), (Z.compare_spec e2 e3); destruct (Z.compare_spec e1 e3); try discriminate; try lia; auto; subst; try lia;
    rewrite <- ?Pos.compare_antisym; change (Pcompare m1 m2 Eq) with (m1 ?= m2)%positive; change (Pcompare m2 m3 Eq) with (m2 ?= m3)%positive;
    change (Pcompare m1 m3 Eq) with (m1 ?= m3)%positive;
    rewrite <- ?Pos.compare_antisym;
    repeat match goal with |- context [(?x ?= ?y)%positive] => destruct (Pos.compare_spec x y) end; try discriminate; auto; try lia.
Qed.
Section Min.
Variables (L : libm) (count : N) (p : dbl).
Lemma curr_m_bits i : curr_m L count p (d_of_N i) = bits_needed L count p i. Proof. reflexivity. Qed.
Lemma min_fold ks : forall acc,
  let r := fold_left (min_step L count p) ks acc in
  (r = acc \/ exists k, In k ks /\ r = (curr_m L count p k, k) /\ SFltb (fst r) (fst acc) = true) /\
  (forall k, In k ks -> SFltb (curr_m L count p k) (fst r) = false) /\
  (forall x, SFltb x (fst acc) = false -> SFltb x (fst r) = false).
Proof.
  induction ks as [|k ks IH]; intros acc; cbn [fold_left]; [split; [left; reflexivity|split; [intros k []|auto]]|].
  destruct (IH (min_step L count p acc k)) as (A & B & C). set (r := fold_left _ ks _) in *. unfold min_step in A, C.
  destruct (SFltb (curr_m L count p k) (fst acc)) eqn:E; cbn [fst] in A, C.
  - assert (forall x, SFltb x (fst acc) = false -> SFltb x (curr_m L count p k) = false) as T.
    { intros x Hx. destruct (SFltb x (curr_m L count p k)) eqn:Y; [|reflexivity]. rewrite (SFltb_trans _ _ _ Y E) in Hx. discriminate. }
    split; [|split].
    + right. destruct A as [A|(k' & H1 & H2 & H3)].
      * exists k. split; [left; reflexivity|]. split; [exact A|]. rewrite A. exact E.
      * exists k'. split; [right; exact H1|]. split; [exact H2|]. eapply SFltb_trans; eauto.
    + intros k' [<-|H]; [|apply B; exact H]. apply C. unfold SFltb. destruct (curr_m L count p k) as [[|]|[|]| |[|] m e]; cbn; auto;
        rewrite Z.compare_refl, Pos.compare_cont_refl; reflexivity.
    + intros x Hx. apply C, T, Hx.
  - split; [|split].
    + destruct A as [A|(k' & H1 & H2)]; [left; exact A|right; exists k'; split; [right; exact H1|exact H2]].
    + intros k' [<-|H]; [|apply B; exact H]. apply C. exact E.
    + exact C.
Qed.
Lemma min_fold_eq ks acc m k : fold_left (min_step L count p) ks acc = (m, k) ->
  ((m, k) = acc \/ exists k', In k' ks /\ k = k' /\ m = curr_m L count p k') /\
  (forall k', In k' ks -> SFltb (curr_m L count p k') m = false).
Proof.
  intros M. destruct (min_fold ks acc) as (A & B & _). rewrite M in A, B. split; [|exact B].
  destruct A as [A|(k1 & H1 & H2 & _)]; [left; exact A|]. right. exists k1. injection H2 as -> ->. auto.
Qed.
End Min.
Strategy -100 [min_m_k].
Lemma min_m_k_unfold L count p : min_m_k L count p = fold_left (min_step L count p) k_values (d_inf, S754_zero false).
Proof. exact eq_refl. Qed.
Lemma min_m_k_eq L count p m k0 : min_m_k L count p = (m, k0) ->
  (m = d_inf \/ exists k, 1 <= k < 1000 /\ k0 = d_of_N k /\ m = bits_needed L count p k) /\
  (forall j, 1 <= j < 1000 -> SFltb (bits_needed L count p j) m = false).
Proof.
  intros M. rewrite min_m_k_unfold in M. revert M. assert (forall x, In x k_values <-> exists i, In i (seq 1 999) /\ d_of_N (N.of_nat i) = x) as Hk by (intros x; unfold k_values; rewrite in_map_iff; split; intros (i & X & Y); exists i; auto).
  revert Hk. generalize k_values. intros kv Hk M. apply min_fold_eq in M as [A B]. split.
  - destruct A as [A|(k' & H1 & -> & ->)]; [left; congruence|]. right.
    apply Hk in H1 as (i & H & <-). apply in_seq in H. exists (N.of_nat i). split; [lia|]. split; reflexivity.
  - intros j Hj. apply (B (d_of_N j)). apply Hk. exists (N.to_nat j). rewrite N2Nat.id. split; [|reflexivity]. apply in_seq. lia.
Qed.
Lemma k_casts : forallb (fun i => match d_cast two32 (d_of_N (N.of_nat i)) with Ok n => n =? N.of_nat i | _ => false end) (seq 1 999) = true.
Proof. vm_cast_no_check (eq_refl true). Qed.
Lemma k_cast k : 1 <= k < 1000 -> d_cast two32 (d_of_N k) = Ok k.
Proof.
  intros H. pose proof k_casts as S. rewrite forallb_forall in S. specialize (S (N.to_nat k)). rewrite N2Nat.id in S.
  assert (In (N.to_nat k) (seq 1 999)) as I by (apply in_seq; lia). specialize (S I).
  destruct (d_cast two32 (d_of_N k)); try discriminate. apply N.eqb_eq in S. subst. reflexivity.
Qed.
Lemma round_size_eq z : z < two32 -> round_size z = if (0 <? z) && (z <=? two32 - 8) then 8 * ((z + 7) / 8) else 1.
Proof.
  intros Hz. unfold round_size. change BITS_PER_CHAR with 8. change (two32 - 8) with 4294967288. change two32 with 4294967296 in *.
  pose proof (N.div_mod z 8 ltac:(discriminate)) as D. pose proof (N.mod_lt z 8 ltac:(discriminate)) as Lt.
  set (q := z / 8) in *. set (r := z mod 8) in *.
  assert (z + (if r =? 0 then 0 else 8 - r) = 8 * ((z + 7) / 8)) as E.
  { destruct (N.eqb_spec r 0) as [R|R].
    - assert (q = (z + 7) / 8) as <- by (apply (N.div_unique (z + 7) 8 q 7); lia). lia.
    - assert (q + 1 = (z + 7) / 8) as <- by (apply (N.div_unique (z + 7) 8 (q + 1) (r - 1)); lia). lia. }
  rewrite E. unfold w32. change two32 with 4294967296. set (u := (z + 7) / 8) in *.
  assert (8 * u <= z + 7) as Hu by (apply N.mul_div_le; discriminate).
  destruct (N.ltb_spec 0 z) as [P|P]; cbn [andb].
  - destruct (N.leb_spec z 4294967288) as [Q|Q].
    + rewrite N.mod_small by lia. destruct (N.ltb_spec (8 * u) 1) as [R|R]; [|reflexivity]. exfalso. destruct (r =? 0); lia.
    + assert (8 * u = 4294967296) as ->. { destruct (N.eqb_spec r 0); lia. } reflexivity.
  - assert (z = 0) as -> by lia. reflexivity.
Qed.
Lemma bloom_new_params L count p b : bloom_new L count p = Ok b ->
  exists k z, 1 <= k < 1000 /\ length (b_salt b) = N.to_nat k /\
    (forall j, 1 <= j < 1000 -> SFltb (bits_needed L count p j) (bits_needed L count p k) = false) /\
    d_trunc (bits_needed L count p k) = Some (Z.of_N z) /\ z < two32 /\
    b_size b = (if (0 <? z) && (z <=? two32 - 8) then 8 * ((z + 7) / 8) else 1) /\
    NoDup (b_salt b) /\ ~ In 0 (b_salt b).
Proof.
  unfold bloom_new. intros H. apply obind_ok in H as ([nh ts] & E & H). apply obind_ok in H as (s & Es & H). injection H as <-. cbn [b_salt b_size].
  unfold optimal_params in E. destruct (params_bad count p); [discriminate|].
  destruct (min_m_k L count p) as [m k0] eqn:M. apply obind_ok in E as (nh' & E1 & E). apply obind_ok in E as (ts' & E2 & E). injection E as <- <-.
  apply min_m_k_eq in M as [[->|(k & Hk & -> & ->)] B]; [discriminate E2|]. rewrite k_cast in E1 by exact Hk. injection E1 as <-.
  unfold clamp_hashes in Es. assert (k <? 1 = false) as X by (apply N.ltb_ge; lia). rewrite X in Es.
  destruct (generate_salts_ok _ _ _ Es) as (L1 & L2 & L3). unfold d_cast in E2. destruct (d_trunc (bits_needed L count p k)) as [z|] eqn:T; [|discriminate].
  destruct (_ && _) eqn:R; [|discriminate]. injection E2 as <-. apply andb_prop in R as [R1 R2]. apply Z.leb_le in R1. apply Z.ltb_lt in R2.
  exists k, (Z.to_N z). rewrite Z2N.id by exact R1. split; [exact Hk|]. split; [exact L1|]. split; [exact B|].
  split; [exact T|]. assert (Z.to_N z < two32) as Hz by lia. split; [exact Hz|]. split; [apply round_size_eq; exact Hz|]. split; [exact L2|exact L3].
Qed.
