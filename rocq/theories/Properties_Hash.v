(** Property theorems about the hash of names and numbers (C69, C70).  The reference function is
    in SpecMurmur; the proofs are in MurmurRef. *)
From Coq Require Import List NArith ZArith Lia.
From Coq.Strings Require Import Byte.
From Verif Require Import Base BaseFacts Murmur MurmurFacts SpecMurmur MurmurRef Iblt Tlv TlvFacts
  Producer.
Import ListNotations.
Local Open Scope N_scope.
Local Transparent murmur.

(** * C69 *)
(** for every seed and every buffer, the hash is MurmurHash3_x86_32 *)
Theorem C69_hash_is_murmur3 : forall seed bs,
  seed < 2 ^ 32 -> murmur seed bs = murmur3_x86_32 seed bs.
Proof. exact murmur_reference. Qed.
Print Assumptions C69_hash_is_murmur3.

(** what the producer and the IBF hash: the TLV-VALUE of a name, with seed 11, and the four bytes
    of a key, least significant byte first *)
Theorem C69_inputs : forall n seed v,
  name_hash n = murmur3_x86_32 11 (flat_map comp_wire n) /\
  (seed < 2 ^ 32 -> v < 2 ^ 32 ->
   exists b0 b1 b2 b3,
     Byte.to_N b0 + 256 * Byte.to_N b1 + 65536 * Byte.to_N b2 + 16777216 * Byte.to_N b3 = v /\
     hash32 seed v = murmur3_x86_32 seed [b0; b1; b2; b3]).
Proof.
  intros n seed v. split.
  - unfold name_hash. apply murmur_reference. reflexivity.
  - intros Hs Hv. unfold hash32. pose proof (le_enc_length 4 v) as L.
    pose proof (le_dec_enc4 v Hv) as D.
    destruct (le_enc 4 v) as [|b0 [|b1 [|b2 [|b3 [|b4 r]]]]]; try discriminate.
    exists b0, b1, b2, b3. split; [|apply murmur_reference; exact Hs].
    rewrite <- D.
    change (b2n b0 + 256 * b2n b1 + 65536 * b2n b2 + 16777216 * b2n b3 =
            b2n b0 + 256 * (b2n b1 + 256 * (b2n b2 + 256 * (b2n b3 + 256 * 0)))). lia.
Qed.
Print Assumptions C69_inputs.

(** published vectors of MurmurHash3_x86_32, with tails of one, two, three and no bytes *)
Example C69_example :
  let a := x61 in
  murmur 0 [] = 0 /\ murmur 0xffffffff [] = 0x81F16F39 /\
  murmur 0x9747b28c [a] = 0x7FA09EA6 /\ murmur 0x9747b28c [a; a] = 0x5D211726 /\
  murmur 0x9747b28c [a; a; a] = 0x283E0130 /\ murmur 0x9747b28c [a; a; a; a] = 0x5A97808A /\
  murmur 0 [x61; x62; x63] = 0xB3DD93FA /\
  (* "Hello, world!" *)
  murmur 0x9747b28c [x48; x65; x6c; x6c; x6f; x2c; x20; x77; x6f; x72; x6c; x64; x21] = 0x24884CBA.
Proof. vm_compute. repeat split; reflexivity. Qed.

(** * C70 *)
(** buffers of one length that differ within one aligned group of four bytes never collide *)
Theorem C70_one_word_changes_the_hash : forall seed bs bs' k,
  seed < 2 ^ 32 -> length bs = length bs' ->
  (forall i, i <> k -> word_at bs i = word_at bs' i) -> word_at bs k <> word_at bs' k ->
  murmur seed bs <> murmur seed bs'.
Proof.
  intros seed bs bs' k Hs Hl He Hn. rewrite !murmur_reference by exact Hs.
  apply (one_word_differs seed bs bs' k); assumption.
Qed.
Print Assumptions C70_one_word_changes_the_hash.

Lemma be_enc_snoc k n : be_enc (S k) n = be_enc k (n / 256) ++ [n2b n].
Proof. reflexivity. Qed.

Lemma nni_same_block n m : n / 256 = m / 256 -> exists a, nni n = a ++ [n2b n] /\ nni m = a ++ [n2b m].
Proof.
  intros H.
  assert (forall k, be_enc (S k) n = be_enc k (n / 256) ++ [n2b n] /\
                    be_enc (S k) m = be_enc k (n / 256) ++ [n2b m]) as K.
  { intros k. rewrite !be_enc_snoc, H. auto. }
  assert (forall q, (n <=? 256 * q + 255) = (m <=? 256 * q + 255)) as B.
  { intros q. assert (n <= 256 * q + 255 <-> m <= 256 * q + 255) as E.
    { pose proof (N.div_mod n 256). pose proof (N.div_mod m 256).
      pose proof (N.mod_lt n 256). pose proof (N.mod_lt m 256). lia. }
    destruct (N.leb_spec n (256 * q + 255)), (N.leb_spec m (256 * q + 255)); auto; lia. }
  pose proof (B 0) as B0. pose proof (B 0xff) as B1. pose proof (B 0xffffff) as B2.
  change (256 * 0 + 255) with 0xff in B0. change (256 * 0xff + 255) with 0xffff in B1.
  change (256 * 0xffffff + 255) with 0xffffffff in B2.
  unfold nni. rewrite <- B0, <- B1, <- B2.
  destruct (n <=? 0xff); [exists (be_enc 0 (n / 256)); apply K|].
  destruct (n <=? 0xffff); [exists (be_enc 1 (n / 256)); apply K|].
  destruct (n <=? 0xffffffff); [exists (be_enc 3 (n / 256)); apply K|].
  exists (be_enc 7 (n / 256)); apply K.
Qed.

(** so two sequence numbers of one prefix collide only if they differ above the last eight bits *)
Theorem C70_numbers_of_one_prefix : forall p n m,
  n <> m -> n / 256 = m / 256 ->
  name_hash (append_number p n) <> name_hash (append_number p m).
Proof.
  intros p n m Hne Hd. destruct (nni_same_block n m Hd) as (a & En & Em).
  assert (forall x, nni x = a ++ [n2b x] ->
    name_value (append_number p x) =
    (name_value p ++ write_var TYPE_GENERIC ++ write_var (N.of_nat (length a + 1)) ++ a) ++ [n2b x])
    as V.
  { intros x Ex. unfold name_value, append_number. rewrite flat_map_app, <- !app_assoc. f_equal.
    change (comp_wire (number_comp TYPE_GENERIC x) ++ [] =
            write_var TYPE_GENERIC ++ write_var (N.of_nat (length a + 1)) ++ a ++ [n2b x]).
    rewrite app_nil_r. unfold comp_wire, number_comp, tlv. cbn [ctype cval].
    rewrite Ex, app_length. reflexivity. }
  unfold name_hash. rewrite (V n En), (V m Em), !murmur_reference by reflexivity.
  apply last_byte_differs; [reflexivity|].
  intros E. apply (f_equal b2n) in E. rewrite !b2n_n2b in E. apply Hne.
  rewrite (N.div_mod n 256), (N.div_mod m 256), Hd, E by discriminate. reflexivity.
Qed.
Print Assumptions C70_numbers_of_one_prefix.

Example C70_example :
  1 <> 2 /\ 1 / 256 = 2 / 256 /\ 65535 / 256 = 65280 / 256 /\
  word_at [x00; x00; x00; x00; x01] 1 <> word_at [x00; x00; x00; x00; x02] 1.
Proof. vm_compute. repeat split; discriminate. Qed.
