(** Property theorems about sync content and sequence-number components (C21-C24, C67). *)
From Coq Require Import List NArith ZArith Bool Lia Arith.
From Coq.Strings Require Import Byte.
From Verif Require Import Base BaseFacts Tlv TlvFacts State SpecTlv StateFacts.
Import ListNotations.
Local Open Scope N_scope.

(** a name and a content whose lengths fit the 64-bit TLV-LENGTH fields, and whose components have
    valid types (what ndn::Name can hold): [wf_name], [wf_names] of TlvFacts *)

(** * C21 *)
Theorem C21_content_roundtrip : forall ns,
  wf_names ns ->
  state_of_buffer (fst (wire_encode (fold_left add_content ns state_new))) = Ok ns.
Proof.
  intros ns Hw.
  assert (forall s, s_wire s = None \/ ns <> [] ->
            s_wire (fold_left add_content ns s) = None) as H1.
  { clear. induction ns as [|n ns IH]; intros s H; cbn [fold_left]; [destruct H; congruence|].
    apply IH. left. reflexivity. }
  assert (forall l s, s_content (fold_left add_content l s) = s_content s ++ l) as H2.
  { clear. induction l as [|n l IH]; intros s; cbn [fold_left]; [rewrite app_nil_r; reflexivity|].
    rewrite IH. cbn. rewrite <- app_assoc. reflexivity. }
  unfold wire_encode. rewrite H1 by (left; reflexivity). cbn. rewrite H2. cbn.
  apply state_roundtrip. exact Hw.
Qed.
Print Assumptions C21_content_roundtrip.

Example C21_example :
  wf_names [[mkComp 8 [x61]; mkComp 8 []]; []; [mkComp 50 [x01; x02]]].
Proof. split; [repeat constructor|reflexivity]. Qed.

(** * C22 *)
Theorem C22_encoding_not_stale : forall ops,
  no_decode ops -> fst (wire_encode (sop_run ops)) = encode_names (added ops).
Proof. exact sop_run_encode. Qed.
Print Assumptions C22_encoding_not_stale.

Example C22_example :
  no_decode [SAdd [mkComp 8 [x61]]; SEncode; SAdd [mkComp 8 [x62]]; SEncode; SEncode] /\
  added [SAdd [mkComp 8 [x61]]; SEncode; SAdd [mkComp 8 [x62]]; SEncode; SEncode] =
    [[mkComp 8 [x61]]; [mkComp 8 [x62]]].
Proof. split; [intros o H; cbn in H; intuition (subst; exact I)|reflexivity]. Qed.

(** * C67 *)
Theorem C67_encoding_after_decode_partial : forall ops,
  decodes_ok state_new ops -> wf_names (s_content (sop_run ops)) ->
  state_of_buffer (fst (wire_encode (sop_run ops))) = Ok (s_content (sop_run ops)).
Proof. intros ops. apply sop_run_cache. discriminate. Qed.
Print Assumptions C67_encoding_after_decode_partial.

(** a decode that fails half way leaves content and encoding in disagreement *)
Theorem C67_encoding_after_decode_refuted : exists ops,
  wf_names (s_content (sop_run ops)) /\
  state_of_buffer (fst (wire_encode (sop_run ops))) <> Ok (s_content (sop_run ops)).
Proof.
  exists [SDecode [x80; x07; x07; x03; x08; x01; x61; x05; x00]].
  split; [split; [repeat constructor|reflexivity]|]. vm_compute. discriminate.
Qed.
Print Assumptions C67_encoding_after_decode_refuted.

Example C67_example :
  decodes_ok state_new [SAdd [mkComp 8 [x61]]; SDecode (encode_names [[mkComp 8 [x62]]]); SEncode;
                        SAdd [mkComp 8 [x63]]] /\
  s_content (sop_run [SAdd [mkComp 8 [x61]]; SDecode (encode_names [[mkComp 8 [x62]]]); SEncode;
                        SAdd [mkComp 8 [x63]]]) = [[mkComp 8 [x62]]; [mkComp 8 [x63]]].
Proof. split; [repeat split; eexists; eexists; split; reflexivity|reflexivity]. Qed.

(** * C23 *)
Theorem C23_decoding_exact : forall bs ns, state_of_buffer bs = Ok ns <-> SyncContent ns bs.
Proof. exact state_of_buffer_iff. Qed.
Print Assumptions C23_decoding_exact.

Theorem C23_otherwise_throws : forall bs,
  (exists ns, SyncContent ns bs) \/
  state_of_buffer bs = Throw ExTlv \/ state_of_buffer bs = Throw ExState.
Proof.
  intros bs. destruct (state_of_buffer_outcomes bs) as [(ns & E)|H]; auto.
  left. exists ns. apply state_of_buffer_iff. exact E.
Qed.
Print Assumptions C23_otherwise_throws.

Example C23_example :
  SyncContent [[mkComp 8 [x61]]] [x80; x05; x07; x03; x08; x01; x61] /\
  state_of_buffer [x80; x02; x05; x00] = Throw ExState /\
  state_of_buffer [x80; x02; x07] = Throw ExTlv.
Proof. split; [apply state_of_buffer_iff; reflexivity|split; reflexivity]. Qed.

(** * C24 *)
Theorem C24_split : forall p n,
  n < two64 ->
  (olet c <- name_get_back (append_number p n) 1; to_number c) = Ok n /\
  name_prefix_back (append_number p n) 1 = p.
Proof.
  intros p n H. unfold append_number. rewrite name_get_back_snoc, name_prefix_back_snoc.
  split; auto. cbn. apply to_number_number. exact H.
Qed.
Print Assumptions C24_split.

Theorem C24_injective : forall p q n k,
  n < two64 -> k < two64 -> append_number p n = append_number q k -> p = q /\ n = k.
Proof. exact append_number_inj. Qed.
Print Assumptions C24_injective.

(** and also after encoding to bytes *)
Theorem C24_injective_on_wire : forall p q n k,
  Forall wf_comp p -> Forall wf_comp q -> n < two64 -> k < two64 ->
  name_value (append_number p n) = name_value (append_number q k) -> p = q /\ n = k.
Proof.
  intros p q n k Hp Hq Hn Hk H. apply append_number_inj; auto.
  apply name_value_inj; auto; apply Forall_app; split; auto;
    constructor; auto using wf_number_comp; apply wf_number_comp; reflexivity.
Qed.
Print Assumptions C24_injective_on_wire.

Example C24_example : 18446744073709551615 < two64 /\
  append_number [] 255 <> append_number [] 256.
Proof. split; [reflexivity|discriminate]. Qed.
