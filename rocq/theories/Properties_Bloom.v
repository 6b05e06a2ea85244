(** Property theorems about the Bloom filter (C16-C20). *)
From Coq Require Import List NArith ZArith Bool Lia Arith Floats.SpecFloat.
From Coq.Strings Require Import Byte.
From Verif Require Import Base BaseFacts Murmur Tlv TlvFacts Bloom SpecBloom BloomFacts.
Import ListNotations.
Local Open Scope N_scope.

(** the loop k = 1.0; k < 1000.0; k += 1.0 of bloom-filter.cpp 148-168 visits exactly [k_values] *)
Fixpoint k_loop (fuel : nat) (k : dbl) : list dbl :=
  match fuel with
  | O => []
  | S f => if SFltb k (d_of_N 1000) then k :: k_loop f (d_add k (d_of_N 1)) else []
  end.
Example k_values_ok : k_loop 1001 (d_of_N 1) = k_values.
Proof. vm_compute. reflexivity. Qed.

(** a C library used in the examples: the prescribed special values, and a constant logarithm
    elsewhere *)
Definition libm_example : libm :=
  mkLibm (fun x => if SFeqb x (S754_zero false) then S754_infinity true
                   else if SFeqb x (d_of_N 1) then S754_zero false
                   else SFopp (d_div (d_of_N 7) (d_of_N 100)))
         (fun x y => match x, y with
                     | S754_zero false, S754_finite s _ _ => if s then S754_infinity false else S754_zero false
                     | _, _ => if SFeqb x (d_of_N 1) then d_of_N 1 else x
                     end)
         (fun _ i => N.of_nat i) 0.
Lemma libm_example_specials : libm_specials libm_example.
Proof. repeat split. Qed.

Definition ok_or {A} (d : A) (m : outcome A) : A := match m with Ok a => a | _ => d end.
Definition b_ex : bloom :=
  Eval vm_compute in ok_or (mkBloom [] [] 0 0 (rate 0)) (bloom_new libm_example 1 (rate 1)).
Lemma b_ex_ok : bloom_new libm_example 1 (rate 1) = Ok b_ex.
Proof. vm_cast_no_check (eq_refl (Ok b_ex)). Qed.
Example libm_example_filter : b_size b_ex = 16 /\ length (b_salt b_ex) = 1%nat.
Proof. split; reflexivity. Qed.

(** * C16 *)
Theorem C16_no_false_negatives : forall L count p b0 ops,
  bloom_new L count p = Ok b0 -> b_size b0 <> 1 ->
  exists b, bloom_run b0 ops = Ok b /\
    (forall n, In n (inserted ops) -> bloom_contains b n = Ok true) /\
    (forall n, exists r, bloom_contains b n = Ok r).
Proof.
  intros L count p b0 ops H H1.
  destruct (bloom_new_facts _ _ _ _ H) as (_ & _ & _ & Hz & _ & [[E _]|Hs]); [contradiction|].
  destruct (bloom_run_ok ops b0 []) as (b & Hr & Hsb & R1 & R2 & _ & _ & _ & Hb); auto.
  exists b. split; [exact Hr|]. split.
  - intros n Hn. rewrite bloom_contains_ok by assumption. f_equal. apply forallb_forall.
    intros j Hj. rewrite Hb. unfold memsN. apply existsb_exists. exists n. split; auto.
    rewrite R1, R2 in Hj. unfold memN. apply existsb_exists. exists j. split; auto. apply N.eqb_refl.
  - intros n. rewrite bloom_contains_ok by assumption. eauto.
Qed.
Print Assumptions C16_no_false_negatives.

Example C16_example :
  bloom_new libm_example 1 (rate 1) = Ok b_ex /\ b_size b_ex <> 1 /\
  exists b, bloom_run b_ex [BIns [mkComp 8 [x61]]; BIns []; BClear; BIns [mkComp 8 [x62]]] = Ok b /\
    bloom_contains b [mkComp 8 [x61]] = Ok false.
Proof.
  split; [exact b_ex_ok|]. split; [discriminate|].
  eexists. split; [vm_compute; reflexivity|]. vm_compute. reflexivity.
Qed.

(** * C17 *)
Theorem C17_order_independent : forall L count p b0 ops1 ops2,
  bloom_new L count p = Ok b0 -> b_size b0 <> 1 ->
  (forall n, In n (inserted ops1) <-> In n (inserted ops2)) ->
  bloom_run b0 ops1 = bloom_run b0 ops2.
Proof.
  intros L count p b0 ops1 ops2 H H1 Hi.
  destruct (bloom_new_facts _ _ _ _ H) as (_ & _ & _ & Hz & _ & [[E _]|Hs]); [contradiction|].
  destruct (bloom_run_ok ops1 b0 []) as (b1 & E1 & _ & A1 & A2 & A3 & A4 & A5 & A6); auto.
  destruct (bloom_run_ok ops2 b0 []) as (b2 & E2 & _ & B1 & B2 & B3 & B4 & B5 & B6); auto.
  rewrite E1, E2. f_equal.
  assert (b_tab b1 = b_tab b2) as Ht.
  { apply table_bits_ext; [congruence|]. intros j _. rewrite A6, B6.
    apply eq_true_iff_eq. unfold memsN. rewrite !existsb_exists.
    split; intros (n & Hn & Hm); exists n; split; auto; apply Hi; auto. }
  destruct b1, b2; cbn in *. congruence.
Qed.
Print Assumptions C17_order_independent.

Theorem C17_monotone_and_clear : forall L count p b0 ops n b,
  bloom_new L count p = Ok b0 -> b_size b0 <> 1 -> bloom_run b0 ops = Ok b ->
  (exists b', bloom_insert b n = Ok b' /\
     forall j, tbit (b_tab b) j = true -> tbit (b_tab b') j = true) /\
  bloom_clear b = b0.
Proof.
  intros L count p b0 ops n b H H1 Hr.
  destruct (bloom_new_facts _ _ _ _ H) as (_ & _ & _ & Hz & _ & [[E _]|Hs]); [contradiction|].
  destruct (bloom_run_ok ops b0 []) as (b1 & E1 & Hsb & A1 & A2 & A3 & A4 & A5 & A6); auto.
  rewrite Hr in E1. injection E1 as <-. split.
  - destruct (bloom_insert_ok b n Hsb) as (t & Ei & L1 & Ht). eexists. split; [exact Ei|].
    intros j Hj. cbn [b_tab]. rewrite Ht, Hj. reflexivity.
  - apply bloom_new_inv in H as (nh & ts & E & _). unfold bloom_clear.
    rewrite A1, A2, A3, A4, A5. rewrite E at 6. rewrite E at 1 2 3 4 5.
    cbn [b_salt b_tab b_size b_count b_fpp]. rewrite repeat_length. reflexivity.
Qed.
Print Assumptions C17_monotone_and_clear.

Example C17_example :
  bloom_new libm_example 1 (rate 1) = Ok b_ex /\ b_size b_ex <> 1 /\
  bloom_run b_ex [BIns [mkComp 8 [x61]]; BIns []] =
    bloom_run b_ex [BIns [mkComp 8 [x62]]; BClear; BIns []; BIns [mkComp 8 [x61]]; BIns []] /\
  exists b, bloom_run b_ex [BIns [mkComp 8 [x61]]] = Ok b /\ b <> b_ex /\ bloom_clear b = b_ex.
Proof.
  split; [exact b_ex_ok|]. split; [discriminate|]. split.
  - apply (C17_order_independent libm_example 1 (rate 1) b_ex); [exact b_ex_ok|discriminate|].
    intros n. vm_compute. intuition.
  - eexists. split; [vm_compute; reflexivity|]. split; [discriminate|vm_compute; reflexivity].
Qed.

(** * C18 *)
Theorem C18_wire : forall L count t ops b0 b n n',
  count < two32 -> 1 <= t <= 1000 ->
  bloom_new L count (rate t) = Ok b0 -> bloom_run b0 ops = Ok b ->     (* the consumer's filter *)
  append_bloom n b = Ok n' ->                                          (* put into the interest name *)
  exists c1 c2 c3, n' = n ++ [c1; c2; c3] /\ to_number c1 = Ok count /\
    exists b', bloom_of_comps L c1 c2 c3 = Ok b' /\                    (* the producer's copy *)
      b' = b /\ forall m, bloom_contains b' m = bloom_contains b m.
Proof.
  intros L count t ops b0 b n n' Hc Ht H0 Hr Ha.
  destruct (bloom_wire L count t ops b0 b n n' Hc) as (c1 & c2 & c3 & E & E1 & E2 & E3 & E4); auto; [lia|].
  exists c1, c2, c3. split; auto. split; auto. exists b. auto.
Qed.
Print Assumptions C18_wire.

(** the component is always produced for these rates *)
Theorem C18_wire_total : forall L count t ops b0 b n,
  1 <= t <= 1000 -> bloom_new L count (rate t) = Ok b0 -> bloom_run b0 ops = Ok b ->
  exists n', append_bloom n b = Ok n'.
Proof.
  intros L count t ops b0 b n Ht H0 Hr. unfold append_bloom.
  apply bloom_run_same in Hr as (_ & _ & _ & R4 & _).
  destruct (bloom_new_facts _ _ _ _ H0) as (_ & F2 & _).
  rewrite R4, F2, rate_roundtrip by lia. cbn. eauto.
Qed.
Print Assumptions C18_wire_total.

Example C18_example :
  bloom_new libm_example 1 (rate 1) = Ok b_ex /\
  exists b n', bloom_run b_ex [BIns [mkComp 8 [x61]]] = Ok b /\ append_bloom [] b = Ok n' /\ length n' = 3%nat.
Proof.
  split; [exact b_ex_ok|]. eexists. eexists.
  split; [vm_compute; reflexivity|]. split; [vm_compute; reflexivity|]. reflexivity.
Qed.

(** * C19: refuted; holds for whole thousandths *)
Definition rate_refuting : dbl := d_div (d_of_N 15) (d_of_N 10000).   (* 0.0015 *)
Definition rate_tiny : dbl := d_div (d_of_N 5) (d_of_N 10000).        (* 0.0005 *)

Theorem C19_any_rate_refuted :
  exists p, SFltb (S754_zero false) p = true /\ SFltb p (d_of_N 1) = true /\
  forall L count b0 ops b n n',
    bloom_new L count p = Ok b0 -> bloom_run b0 ops = Ok b -> append_bloom n b = Ok n' ->
    exists c1 c2 c3 k, n' = n ++ [c1; c2; c3] /\ to_number c2 = Ok k /\ rate k <> p.
Proof.
  exists rate_refuting. split; [vm_compute; reflexivity|]. split; [vm_compute; reflexivity|].
  intros L count b0 ops b n n' H0 Hr Ha.
  apply bloom_run_same in Hr as (_ & _ & _ & R4 & _).
  destruct (bloom_new_facts _ _ _ _ H0) as (_ & F2 & _).
  unfold append_bloom in Ha. rewrite R4, F2 in Ha.
  replace (d_cast two64 (d_mul rate_refuting (d_of_N 1000))) with (Ok 1) in Ha by (vm_compute; reflexivity).
  cbn [obind] in Ha. injection Ha as <-.
  exists (number_comp TYPE_GENERIC (b_count b)), (number_comp TYPE_GENERIC 1),
         (mkComp TYPE_GENERIC (b_tab b)), 1.
  split; [unfold append_bytes, append_number; rewrite <- !app_assoc; reflexivity|].
  split; [reflexivity|]. vm_compute. discriminate.
Qed.
Print Assumptions C19_any_rate_refuted.

(** below one thousandth the rate arrives as 0, on which the producer's construction is undefined *)
Theorem C19_tiny_rate_refuted : forall L b0 ops b n n',
  libm_specials L ->
  bloom_new L 80 rate_tiny = Ok b0 -> bloom_run b0 ops = Ok b -> append_bloom n b = Ok n' ->
  exists c1 c2 c3, n' = n ++ [c1; c2; c3] /\ bloom_of_comps L c1 c2 c3 = UB UbFloatCast.
Proof.
  intros L b0 ops b n n' HL H0 Hr Ha.
  apply bloom_run_same in Hr as (_ & _ & R3 & R4 & _).
  destruct (bloom_new_facts _ _ _ _ H0) as (F1 & F2 & _).
  unfold append_bloom in Ha. rewrite R4, F2, R3, F1 in Ha.
  replace (d_cast two64 (d_mul rate_tiny (d_of_N 1000))) with (Ok 0) in Ha by (vm_compute; reflexivity).
  cbn [obind] in Ha. injection Ha as <-.
  exists (number_comp TYPE_GENERIC 80), (number_comp TYPE_GENERIC 0), (mkComp TYPE_GENERIC (b_tab b)).
  split; [unfold append_bytes, append_number; rewrite <- !app_assoc; reflexivity|].
  unfold bloom_of_comps. rewrite !to_number_number by reflexivity. cbn [obind].
  unfold bloom_of_comp, bloom_new. change (w32 80) with 80. fold (rate 0).
  rewrite params_rate_zero by assumption. reflexivity.
Qed.
Print Assumptions C19_tiny_rate_refuted.

Theorem C19_any_rate_partial : forall L count t b0 ops b n n',
  t <= 1000 -> bloom_new L count (rate t) = Ok b0 -> bloom_run b0 ops = Ok b ->
  append_bloom n b = Ok n' ->
  exists c1 c2 c3 k, n' = n ++ [c1; c2; c3] /\ to_number c2 = Ok k /\ rate k = rate t.
Proof.
  intros L count t b0 ops b n n' Ht H0 Hr Ha.
  apply bloom_run_same in Hr as (_ & _ & _ & R4 & _).
  destruct (bloom_new_facts _ _ _ _ H0) as (_ & F2 & _).
  unfold append_bloom in Ha. rewrite R4, F2, rate_roundtrip in Ha by assumption.
  cbn [obind] in Ha. injection Ha as <-.
  exists (number_comp TYPE_GENERIC (b_count b)), (number_comp TYPE_GENERIC t),
         (mkComp TYPE_GENERIC (b_tab b)), t.
  split; [unfold append_bytes, append_number; rewrite <- !app_assoc; reflexivity|].
  split; [apply to_number_number; unfold two64; lia|reflexivity].
Qed.
Print Assumptions C19_any_rate_partial.

Example C19_example :
  exists b0 n', bloom_new libm_example 80 rate_refuting = Ok b0 /\ append_bloom [] b0 = Ok n' /\
  exists b1, bloom_new libm_example 80 rate_tiny = Ok b1.
Proof.
  eexists. eexists. split; [vm_compute; reflexivity|]. split; [vm_compute; reflexivity|].
  eexists. vm_compute. reflexivity.
Qed.

(** * C20: refuted by rate 1.000; otherwise it depends only on the table size *)
Theorem C20_memory_safety_refuted : forall L,
  libm_specials L ->
  exists c1 c2 c3 b, bloom_of_comps L c1 c2 c3 = Ok b /\
    forall n, bloom_contains b n = UB UbOutOfBounds /\ bloom_insert b n = UB UbOutOfBounds.
Proof.
  intros L HL.
  exists (number_comp TYPE_GENERIC 80), (number_comp TYPE_GENERIC 1000), (mkComp TYPE_GENERIC []).
  unfold bloom_of_comps. rewrite !to_number_number by reflexivity. cbn [obind].
  unfold bloom_of_comp, bloom_new. change (w32 80) with 80. fold (rate 1000).
  rewrite params_rate_one by assumption. cbn [obind].
  eexists. split; [reflexivity|]. intros n. apply bloom_degenerate; [discriminate|reflexivity|reflexivity].
Qed.
Print Assumptions C20_memory_safety_refuted.

Theorem C20_memory_safety_partial : forall L count p c b,
  bloom_of_comp L count p c = Ok b ->
  N.of_nat (length (b_tab b)) = b_size b / 8 /\
  (b_size b <> 1 ->                                    (* every access is in bounds *)
     b_size b mod 8 = 0 /\
     forall ops, exists b', bloom_run b ops = Ok b' /\ forall n, exists r, bloom_contains b' n = Ok r) /\
  (b_size b = 1 ->                                     (* no access is *)
     b_tab b = [] /\
     forall n, bloom_contains b n = UB UbOutOfBounds /\ bloom_insert b n = UB UbOutOfBounds).
Proof.
  intros L count p c b H. destruct (bloom_of_comp_cases _ _ _ _ _ H) as (Hs & Hl & Hc).
  split; [exact Hl|]. split.
  - intros H1. destruct Hc as [[E _]|Hsd]; [contradiction|]. split.
    + destruct Hsd as [_ <-]. apply N.mod_mul. discriminate.
    + clear -Hsd. intros ops. revert b Hsd. induction ops as [|[n|] ops IH]; intros b Hsd.
      * exists b. split; auto. intros n. rewrite bloom_contains_ok by assumption. eauto.
      * destruct (bloom_insert_ok b n Hsd) as (t & E & L1 & _).
        destruct (IH (mkBloom (b_salt b) t (b_size b) (b_count b) (b_fpp b))) as (b' & E' & H').
        { destruct Hsd. split; cbn; [auto|rewrite L1; auto]. }
        exists b'. cbn [bloom_run]. rewrite E. auto.
      * destruct (IH (bloom_clear b)) as (b' & E' & H').
        { destruct Hsd. split; cbn; [auto|rewrite repeat_length; auto]. }
        exists b'. auto.
  - intros H1. destruct Hc as [[_ Ht]|[_ Hsd]].
    + split; auto. intros n. apply bloom_degenerate; auto.
    + rewrite H1 in Hsd. lia.
Qed.
Print Assumptions C20_memory_safety_partial.

Example C20_example :
  exists b, bloom_of_comp libm_example 1 (rate 1) (mkComp 8 [x01; x02]) = Ok b /\ b_size b = 16.
Proof.
  unfold bloom_of_comp. rewrite b_ex_ok. eexists. split; [vm_compute; reflexivity|reflexivity].
Qed.
