(** Property theorems about how full a Bloom filter gets (C118). *)
From Coq Require Import List NArith ZArith Bool Lia Arith Floats.SpecFloat.
From Coq.Strings Require Import Byte.
From Verif Require Import Base BaseFacts Murmur MurmurFacts Tlv TlvFacts Bloom SpecBloom BloomFacts BloomFull
  SpecBloomFull Properties_Bloom.
Import ListNotations.
Local Open Scope N_scope.

(** ** Lemmas *)
Lemma any_filter L count p b :
  (exists b0 ops, bloom_new L count p = Ok b0 /\ bloom_run b0 ops = Ok b) \/
  (exists c, bloom_of_comp L count p c = Ok b) -> b_size b <> 1 ->
  bloom_sound b /\ b_salt b <> [] /\ Forall (fun s => s < two32) (b_salt b) /\ b_size b < two32.
Proof.
  intros [(b0 & ops & H & Hr)|(c & H)] H1.
  - destruct (bloom_new_facts _ _ _ _ H) as (_ & _ & Hn & Hz & _ & Hc).
    pose proof (bloom_new_words _ _ _ _ H) as [W1 W2].
    assert (bloom_sound b0) as Hs.
    { destruct Hc as [[E Et]|Hs]; [|exact Hs]. exfalso. apply H1.
      assert (forall ops b0 b, b_size b0 = 1 -> bloom_run b0 ops = Ok b -> b_size b = 1) as G.
      { clear. induction ops as [|[n|] ops IH]; intros b0 b E; cbn [bloom_run].
        - intros [= <-]. exact E.
        - unfold bloom_insert. intros H. apply obind_ok in H as (b1 & H1 & H). apply obind_ok in H1 as (t & _ & H1).
          injection H1 as <-. revert H. apply IH. exact E.
        - apply IH. exact E. }
      exact (G ops b0 b E Hr). }
    destruct (bloom_run_ok ops b0 []) as (b' & E & Hs' & A1 & A2 & _); auto.
    rewrite Hr in E. injection E as <-. rewrite A1, A2. auto.
  - destruct (bloom_of_comp_cases _ _ _ _ _ H) as (Hn & _ & Hc). apply bloom_of_comp_inv in H as (b0 & H & _ & ->).
    apply bloom_new_words in H as [W1 W2]. cbn [b_salt b_size] in *. destruct Hc as [[E _]|Hs]; [contradiction|]. auto.
Qed.

(** * C118 *)
(** however many insertions and clears, no more bits are set than the number of hash functions times
    the number of different names inserted since the last clear *)
Theorem C118_few_bits_are_set : forall L count p b0 ops b ns,
  bloom_new L count p = Ok b0 -> b_size b0 <> 1 -> bloom_run b0 ops = Ok b ->
  (forall n, In n (inserted ops) -> In n ns) ->
  (length (bits_set b) <= length (b_salt b) * length ns)%nat.
Proof.
  intros L count p b0 ops b ns H H1 Hr Hi.
  destruct (bloom_new_facts _ _ _ _ H) as (_ & _ & _ & Hz & _ & [[E _]|Hs]); [contradiction|].
  destruct (bloom_run_ok ops b0 []) as (b' & E & Hs' & A1 & A2 & _ & _ & _ & A); auto.
  rewrite Hr in E. injection E as <-.
  rewrite <- (idx_length (b_size b) (b_salt b) ns). apply NoDup_incl_length.
  - apply NoDup_filter, all_bits_NoDup.
  - intros j Hj. apply filter_In in Hj as [_ Hj]. rewrite A, <- A1, <- A2 in Hj. apply memsN_in in Hj.
    apply in_flat_map in Hj as (n & Hn & Hj). apply in_flat_map. exists n. split; auto.
Qed.
Print Assumptions C118_few_bits_are_set.

(** a filter, made here or received, matches every name exactly if all its bits are set; while one is
    clear there is, below every name, a name it rejects *)
Theorem C118_matches_everything_only_if_full : forall L count p b,
  (exists b0 ops, bloom_new L count p = Ok b0 /\ bloom_run b0 ops = Ok b) \/
  (exists c, bloom_of_comp L count p c = Ok b) -> b_size b <> 1 ->
  ((forall j, j < b_size b -> tbit (b_tab b) j = true) <-> (forall n, bloom_contains b n = Ok true)) /\
  forall j q, j < b_size b -> tbit (b_tab b) j = false -> rejects_below b q.
Proof.
  intros L count p b H H1. destruct (any_filter L count p b H H1) as (Hs & Hn & W1 & W2).
  assert (forall j q, j < b_size b -> tbit (b_tab b) j = false -> rejects_below b q) as R.
  { intros j q Hj Hf. exact (clear_bit_rejects b q j Hs Hn W1 W2 Hj Hf). }
  split; [|exact R]. split.
  - intros A n. rewrite bloom_contains_ok by exact Hs. f_equal. apply forallb_forall. intros j Hj.
    apply A. unfold idx in Hj. apply in_map_iff in Hj as (s & <- & _). apply N.mod_lt. apply Hs.
  - intros A j Hj. destruct (tbit (b_tab b) j) eqn:F; [reflexivity|].
    destruct (R j [] Hj F) as (v & _ & E). rewrite A in E. discriminate.
Qed.
Print Assumptions C118_matches_everything_only_if_full.

(** a filter with more bits than hash functions times different names inserted does not match
    everything: below every name there is one it rejects *)
Theorem C118_room_left : forall L count p b0 ops b ns q,
  bloom_new L count p = Ok b0 -> b_size b0 <> 1 -> bloom_run b0 ops = Ok b ->
  (forall n, In n (inserted ops) -> In n ns) ->
  N.of_nat (length (b_salt b) * length ns) < b_size b -> rejects_below b q.
Proof.
  intros L count p b0 ops b ns q H H1 Hr Hi Hlt.
  pose proof (C118_few_bits_are_set L count p b0 ops b ns H H1 Hr Hi) as Hc.
  assert (b_size b = b_size b0) as Ez.
  { destruct (bloom_new_facts _ _ _ _ H) as (_ & _ & _ & Hz & _ & [[E _]|Hs]); [contradiction|].
    destruct (bloom_run_ok ops b0 []) as (b' & E & _ & _ & A2 & _); auto. rewrite Hr in E. injection E as <-. exact A2. }
  destruct (C118_matches_everything_only_if_full L count p b) as [_ R]; [left; eauto|congruence|].
  destruct (forallb (tbit (b_tab b)) (all_bits (b_size b))) eqn:F.
  - exfalso. rewrite forallb_forall in F.
    assert (bits_set b = all_bits (b_size b)) as E.
    { unfold bits_set. change (map N.of_nat (seq 0 (N.to_nat (b_size b)))) with (all_bits (b_size b)).
      revert F. generalize (all_bits (b_size b)). induction l as [|j l IH]; intros F; [reflexivity|].
      cbn [filter]. rewrite (F j) by (left; reflexivity). f_equal. apply IH. intros; apply F; right; assumption. }
    rewrite E, all_bits_length in Hc. lia.
  - assert (exists j, In j (all_bits (b_size b)) /\ tbit (b_tab b) j = false) as (j & Hj & Hf).
    { revert F. generalize (all_bits (b_size b)). induction l as [|j l IH]; cbn [forallb]; [discriminate|].
      destruct (tbit (b_tab b) j) eqn:E; cbn [andb].
      - intros F. destruct (IH F) as (k & Hk & Ek). exists k. split; [right|]; assumption.
      - intros _. exists j. split; [left; reflexivity|exact E]. }
    apply (R j q); [apply all_bits_in, Hj|exact Hf].
Qed.
Print Assumptions C118_room_left.

(** a filter of sixteen bits and one hash function, with one name inserted twice: one bit is set, the
    name is matched, and below it some name is not *)
Example C118_example : exists b,
  bloom_run b_ex [BIns [mkComp 8 [x61]]; BIns [mkComp 8 [x61]]] = Ok b /\
  length (bits_set b) = 1%nat /\ bloom_contains b [mkComp 8 [x61]] = Ok true /\
  rejects_below b [mkComp 8 [x61]].
Proof.
  eexists. split; [vm_compute; reflexivity|]. split; [vm_compute; reflexivity|]. split; [vm_compute; reflexivity|].
  apply (C118_room_left libm_example 1 (rate 1) b_ex [BIns [mkComp 8 [x61]]; BIns [mkComp 8 [x61]]] _ [[mkComp 8 [x61]]]).
  - exact b_ex_ok.
  - vm_compute. discriminate.
  - vm_compute. reflexivity.
  - intros n [<-|[<-|[]]]; left; reflexivity.
  - vm_compute. reflexivity.
Qed.
