(** Property theorems about the parameters of Bloom filters (C83, C84). *)
From Coq Require Import List NArith ZArith Bool Lia Arith Floats.SpecFloat.
From Verif Require Import Base BaseFacts Murmur Tlv Bloom SpecBloom BloomFacts BloomParams Properties_Bloom.
Import ListNotations.
Local Open Scope N_scope.

(** * C83 *)
(** a filter, new or rebuilt from the wire, has between 1 and 999 hash functions, all different *)
Theorem C83_distinct_hash_functions : forall L count p b,
  (bloom_new L count p = Ok b \/ exists c, bloom_of_comp L count p c = Ok b) ->
  (1 <= length (b_salt b) < 1000)%nat /\ NoDup (b_salt b) /\ ~ In 0 (b_salt b).
Proof.
  intros L count p b H.
  assert (exists b0, bloom_new L count p = Ok b0 /\ b_salt b = b_salt b0) as (b0 & E & ->).
  { destruct H as [H|(c & H)]; [eauto|]. apply bloom_of_comp_inv in H as (b0 & E & _ & ->). exists b0. split; [exact E|reflexivity]. }
  apply bloom_new_params in E as (k & z & Hk & L1 & _ & _ & _ & _ & A & B). split; [lia|]. split; [exact A|exact B].
Qed.
Print Assumptions C83_distinct_hash_functions.
(** however many hash functions are asked for, that many salts are generated, all different and none
    zero, whatever the C library's random numbers *)
Theorem C83_salts : forall L k l, generate_salts L k = Ok l -> length l = N.to_nat k /\ NoDup l /\ ~ In 0 l.
Proof. intros L k l. apply generate_salts_ok. Qed.
Print Assumptions C83_salts.

(** * C84 *)
(** no number of hash functions from 1 to 999 would need fewer bits; the table has the bits needed,
    rounded up to whole bytes, if that fits in 32 bits and is not zero *)
Theorem C84_least_table : forall L count p b, bloom_new L count p = Ok b ->
  exists z, d_trunc (bits_needed L count p (N.of_nat (length (b_salt b)))) = Some (Z.of_N z) /\ z < two32 /\
    (forall j, 1 <= j < 1000 ->
       SFltb (bits_needed L count p j) (bits_needed L count p (N.of_nat (length (b_salt b)))) = false) /\
    (0 < z <= two32 - 8 -> z <= b_size b < z + 8 /\ b_size b mod 8 = 0 /\ N.of_nat (length (b_tab b)) * 8 = b_size b) /\
    (z = 0 \/ two32 - 8 < z -> b_size b = 1 /\ b_tab b = []).
Proof.
  intros L count p b H. pose proof (bloom_new_facts _ _ _ _ H) as (_ & _ & _ & _ & Lt & Hc).
  apply bloom_new_params in H as (k & z & Hk & L1 & L2 & L3 & Hz & Hs & _). exists z. rewrite L1, N2Nat.id.
  split; [exact L3|]. split; [exact Hz|]. split; [exact L2|]. split.
  - intros [Z1 Z2]. apply N.ltb_lt in Z1. rewrite Z1 in Hs. apply N.leb_le in Z2. rewrite Z2 in Hs. cbn [andb] in Hs.
    pose proof (N.div_mod (z + 7) 8 ltac:(discriminate)) as D. pose proof (N.mod_lt (z + 7) 8 ltac:(discriminate)) as M.
    apply N.ltb_lt in Z1. rewrite Hs. split; [lia|]. split; [rewrite N.mul_comm; apply N.mod_mul; discriminate|].
    rewrite Lt, Hs, (N.mul_comm 8 (_ / 8)), N.div_mul by discriminate. reflexivity.
  - intros Zc. assert ((0 <? z) && (z <=? two32 - 8) = false) as X.
    { destruct Zc as [->|Zc]; [reflexivity|]. apply andb_false_iff. right. apply N.leb_gt. exact Zc. }
    rewrite X in Hs. split; [exact Hs|]. rewrite Hs in Lt. change (1 / 8) with 0 in Lt. destruct (b_tab b); [reflexivity|discriminate Lt].
Qed.
Print Assumptions C84_least_table.

(** one name, rate 0.001: 100 / 7 = 14.28... bits with one hash function *)
Example C83_example : bloom_new libm_example 1 (rate 1) = Ok b_ex /\ length (b_salt b_ex) = 1%nat /\ b_size b_ex = 16.
Proof. split; [exact b_ex_ok|]. split; reflexivity. Qed.
Example C83_salts_example : exists l, generate_salts libm_example 3 = Ok l /\ length l = 3%nat.
Proof. eexists. split; [vm_compute; reflexivity|reflexivity]. Qed.
Example C84_example : bloom_new libm_example 1 (rate 1) = Ok b_ex /\
  d_trunc (bits_needed libm_example 1 (rate 1) (N.of_nat (length (b_salt b_ex)))) = Some 14%Z /\
  SFltb (bits_needed libm_example 1 (rate 1) 1) (bits_needed libm_example 1 (rate 1) 2) = true.
Proof. split; [exact b_ex_ok|]. split; vm_compute; reflexivity. Qed.
