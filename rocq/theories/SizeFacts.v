(** The sizes of names and packets. *)
From Coq Require Import List NArith ZArith Bool Arith Lia.
From Verif Require Import Base BaseFacts Iblt SpecIblt IbltFacts Tlv TlvFacts State Codec CodecFacts Bloom Store Producer
  Partial SpecPartial Consumer SpecConsumer Full SpecFull SpecWire WireFacts SpecSize.
Import ListNotations.
Local Open Scope N_scope.
Local Open Scope list_scope.

Lemma size_app a b : size (a ++ b) = size a + size b.
Proof. unfold size. rewrite flat_map_app, app_length. lia. Qed.
Lemma size_nil : size [] = 0. Proof. reflexivity. Qed.
Lemma write_var_size n : N.of_nat (length (write_var n)) =
  if n <? 253 then 1 else if n <=? 65535 then 3 else if n <=? 4294967295 then 5 else 9.
Proof. unfold write_var. repeat destruct (_ <? _); repeat destruct (_ <=? _); cbn [length]; rewrite ?be_enc_length; reflexivity. Qed.
Lemma size_one c : ctype c < 253 -> size [c] = field (N.of_nat (length (cval c))).
Proof.
  intros H. unfold size. cbn [flat_map]. rewrite app_nil_r. unfold comp_wire, tlv. rewrite !app_length, !Nat2N.inj_add, !write_var_size.
  replace (ctype c <? 253) with true by (symmetry; apply N.ltb_lt; exact H). unfold field. lia.
Qed.
Lemma size_cons c n : size (c :: n) = size [c] + size n.
Proof. apply (size_app [c]). Qed.
Lemma field_number l : In l [1; 2; 4; 8]%nat -> 3 <= field (N.of_nat l) <= 10.
Proof. intros [<-|[<-|[<-|[<-|[]]]]]; cbv; split; discriminate. Qed.
Lemma field_mono a b : a <= b -> field a <= field b.
Proof.
  intros H. unfold field. destruct (N.ltb_spec a 253), (N.ltb_spec b 253), (N.leb_spec a 65535), (N.leb_spec b 65535),
    (N.leb_spec a 4294967295), (N.leb_spec b 4294967295); lia.
Qed.
Lemma field_above l : l < field l.
Proof. unfold field. lia. Qed.
Lemma n_entries_cells n : N.of_nat (n_entries n) = cells n.
Proof.
  unfold n_entries, cells, N_HASH. replace (N.of_nat n + N.of_nat n / 2 + 2) with (N.of_nat (n + Nat.div n 2 + 2))
    by (rewrite !Nat2N.inj_add, Nat2N.inj_div; reflexivity).
  change 3 with (N.of_nat 3) at 2. rewrite <- Nat2N.inj_div. generalize (n + Nat.div n 2)%nat as e. intros e.
  pose proof (Nat.div_mod e 3 ltac:(lia)) as D. pose proof (Nat.mod_upper_bound e 3 ltac:(lia)) as U.
  pose proof (Nat.div_mod (e + 2) 3 ltac:(lia)) as D2. pose proof (Nat.mod_upper_bound (e + 2) 3 ltac:(lia)) as U2.
  destruct (Nat.eqb_spec (e mod 3) 0); lia.
Qed.
Lemma ibf_size C s c t n : carries_ibf C s c t -> length t = n_entries n -> forall B, compresses_to C s (12 * cells n) B -> size [c] <= field B.
Proof.
  intros [T E] L B H. rewrite size_one by (rewrite T; reflexivity). apply field_mono. apply (H _ _) in E; [exact E|].
  rewrite table_bytes_length, Nat2N.inj_mul, L, n_entries_cells. reflexivity.
Qed.
Lemma ibf_size_plain C c t n : carries_ibf C SNone c t -> length t = n_entries n -> size [c] = field (12 * cells n).
Proof.
  intros [T E] L. rewrite size_one by (rewrite T; reflexivity). cbn [compress] in E. injection E as E. rewrite <- E.
  rewrite table_bytes_length, Nat2N.inj_mul, L, n_entries_cells. reflexivity.
Qed.
Lemma node_interest_sizes K n : own_interest K n -> exists c m, n = fc_sync K ++ [c; m] /\ fown K c /\ 3 <= size [m] <= 10.
Proof.
  intros (k & (c & Hc & ->) & L). exists c, (number_comp TYPE_GENERIC (k_count k)). split; [reflexivity|]. split; [exists (k_iblt k); auto|].
  rewrite size_one by reflexivity. apply field_number. apply nni_length.
Qed.
Lemma segment_size n d : segment_under n d -> size (d_name d) <= size n + 20 /\ (length (d_content d) <= 4400)%nat.
Proof.
  intros (_ & v & i & z & -> & Tv & Ti & Lv & Li & _ & _ & _ & L). split; [|exact L].
  rewrite size_app, (size_cons v), !size_one by (rewrite ?Tv, ?Ti; reflexivity).
  pose proof (field_number _ Lv). pose proof (field_number _ Li). lia.
Qed.
Lemma nack_size n d : nack_under n d -> size (d_name d) <= size n + 10 /\ d_content d = [].
Proof.
  intros (_ & E & z & -> & (T & Z & L) & F). split; [|exact E]. rewrite size_app, size_one by (rewrite T; reflexivity).
  pose proof (field_number _ L). lia.
Qed.
Lemma under_prefix_of n r d : d_name d = n ++ r -> is_prefix n (d_name d) = true.
Proof. intros ->. apply is_prefix_app. Qed.
