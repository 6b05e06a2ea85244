(** C35, C39, C67: exactly when these properties fail. *)
From Coq Require Import List NArith ZArith Bool Arith Lia.
From Coq.Strings Require Import Byte.
From Verif Require Import Base BaseFacts Mon MonFacts Iblt SpecIblt IbltFacts HonestFacts IbltProps Tlv SpecTlv TlvFacts State StateFacts NMap NMapFacts
  Codec CodecFacts Bloom SpecBloom BloomFacts Properties_Bloom Store StoreFacts Producer SpecProducer ProducerFacts Properties_Producer
  Partial SpecPartial PartialFacts PartialSteps PartialAnswers Properties_Partial Properties_State.
Import ListNotations.
Local Open Scope N_scope.

(** * C35 *)
(** a producer made for fewer than two entries answers every interest with its current IBF at once, with no names;
    from two entries on the interest waits (C35_current_ibf_waits_partial) *)
Theorem C35_small_sizes_never_wait : forall K evs s o iname rname bf l c,
  scheme_ok (pc_codec K) (pc_scheme K) ->
  Forall pev_wf evs -> collision_free (pc_n K) (history evs) ->
  pp_run K (pp_new K) evs = Some (s, o) ->
  sync_request_for K iname rname bf (k_iblt (pp_core s)) ->
  reply_from_store iname (pp_pub s) = None ->
  carries_ibf (pc_codec K) (pc_scheme K) c (k_iblt (pp_core s)) ->
  (pc_n K < 2)%nat -> (0 < pc_fuel K)%nat ->
  exists s' o', pp_step K (PInterest iname l) s = (s', o', Ok tt) /\
    published K s s' iname (rname ++ [c]) [] (pc_sync_fresh K) o' /\ pp_pending s' = pp_pending s.
Proof.
  intros K evs s o iname rname bf l c Sk W Hc R Hq Hr Hi H2 Hf.
  destruct (reach_core K evs s o W R) as [W' C].
  pose proof (C30_ibf_is_current_names _ _ _ W' C Hc) as [Hi' _].
  assert (NoDup (map name_hash (live (pp_core s)))) as Nl
    by (apply (Hc (history evs) [] _); [rewrite app_nil_r; auto|exact C]).
  set (a := map name_hash (live (pp_core s))) in *.
  assert (only_in a a = []) as Ho.
  { destruct (only_in a a) as [|x l0] eqn:E; auto.
    assert (In x (only_in a a)) as Hx by (rewrite E; left; auto). apply only_in_In in Hx. tauto. }
  assert (signed_diff a a = []) as Hs by (unfold signed_diff; rewrite Ho; reflexivity).
  destruct (iblt_sub_honest (pc_n K) a a (k_iblt (pp_core s)) (k_iblt (pp_core s)) (pc_fuel K)) as (d & E & Dp & Dn & De & _); auto.
  { rewrite Hs. intros l0 _ Hin Hl. destruct l0 as [|x l0]; [simpl in Hl; lia|].
    destruct (Hin x (or_introl eq_refl)). }
  { rewrite Hs. exact Hf. }
  rewrite Ho in De. assert (can_decode d = true) as Cd.
  { apply De. exists []. split; [constructor|exact I]. }
  assert (positive d = []) as P by (destruct (positive d) as [|x ?]; auto; destruct (Dp x (or_introl eq_refl)); tauto).
  assert (matching (k_bimap (pp_core s)) bf (positive d) = Ok []) as M by (rewrite P; reflexivity).
  rewrite (step_decoded _ _ _ _ _ _ _ _ _ _ Sk Hq Hr E Cd M Hi).
  replace (Nat.leb (threshold (pc_n K)) (diff_size d)) with true.
  2:{ symmetry. apply Nat.leb_le. unfold threshold. destruct (pc_n K) as [|[|n]]; cbn; lia. }
  cbn [orb]. destruct (pp_publish_total K iname (rname ++ [c]) (encode_names []) (pc_sync_fresh K) s) as (p & o' & Pb & ->).
  { destruct Hq as (c1 & c2 & c3 & c4 & tail & -> & -> & _). destruct (pc_sync K); discriminate. }
  exists (set_pub p s), o'. split; [reflexivity|]. split; [exact Pb|reflexivity].
Qed.
Print Assumptions C35_small_sizes_never_wait.
Example C35_small_sizes_example :
  scheme_ok (pc_codec K1) (pc_scheme K1) /\ pp_run K1 (pp_new K1) [] = Some (pp_new K1, []) /\
  sync_request_for K1 (request K1 all_ones (iblt_new 1)) (request K1 all_ones (iblt_new 1)) bf_all (k_iblt (pp_core (pp_new K1))) /\
  reply_from_store (request K1 all_ones (iblt_new 1)) (pp_pub (pp_new K1)) = None /\
  carries_ibf (pc_codec K1) (pc_scheme K1) (gen (table_bytes (iblt_new 1))) (k_iblt (pp_core (pp_new K1))) /\
  (pc_n K1 < 2)%nat /\ (0 < pc_fuel K1)%nat.
Proof.
  split; [left; reflexivity|]. split; [reflexivity|].
  split; [apply request_ex; [reflexivity|reflexivity|apply bf_all_ok|apply iblt_new_length|apply iblt_new_wf]|].
  split; [reflexivity|]. split; [split; reflexivity|]. split; [apply Nat.ltb_lt; reflexivity|apply Nat.ltb_lt; reflexivity].
Qed.

(** * C39 *)
(** an interest [n] waits under the name [key]; when its lifetime is over and the timer has run it is forgotten
    exactly if it was received under that name, that is, without version and segment *)
Theorem C39_forgotten_exactly_when : forall K evs s o n key bf t l s1 bf' t' dt s2 o2,
  pp_run K (pp_new K) evs = Some (s, o) -> sync_request_for K n key bf t ->
  pp_step K (PInterest n l) s = (s1, [], Ok tt) ->
  nm_find key (pp_pending s1) = Some (mkPentry bf' t' (Some (pp_now s + l, n))) ->
  l <= dt -> pp_run K s1 [PTick dt; PExpire key] = Some (s2, o2) ->
  (nm_find key (pp_pending s2) = None <-> n = key).
Proof.
  intros K evs s o n key bf t l s1 bf' t' dt s2 o2 R Hq St Hf Hl R2.
  pose proof (pp_run_ok _ _ _ _ R) as Ok0. destruct (pp_step_ok _ _ _ _ _ _ Ok0 St) as (Ok1 & _ & Hnow & _).
  pose proof (po_sorted _ _ Ok1) as So.
  cbn in R2. unfold expire in R2. cbn [pp_pending pp_now] in R2. rewrite Hf in R2. cbn [pe_expiry] in R2.
  rewrite Hnow in R2. replace (pp_now s + l <=? pp_now s + dt) with true in R2 by (symmetry; apply N.leb_le; lia).
  injection R2 as <- _. cbn [pp_pending set_pending].
  rewrite (nm_find_erase n key) by (apply nm_set_sorted; exact So).
  rewrite nm_find_set, name_eqb_refl. destruct (name_eqb key n) eqn:E.
  - apply name_eqb_eq in E. split; congruence.
  - split; [discriminate|]. intros ->. rewrite name_eqb_refl in E. discriminate.
Qed.
Print Assumptions C39_forgotten_exactly_when.
(** both kinds of interest *)
Example C39_forgotten_example :
  (exists o, pp_run Kx (pp_new Kx) [PAdd pa] = Some (s_fresh, o)) /\
  sync_request_for Kx six q_all bf_all (iblt_new 10) /\ six <> q_all /\
  (exists s1, pp_step Kx (PInterest six 1000) s_fresh = (s1, [], Ok tt) /\
     nm_find q_all (pp_pending s1) = Some (mkPentry bf_all (iblt_new 10) (Some (pp_now s_fresh + 1000, six)))) /\
  sync_request_for Kx q_all q_all bf_all (iblt_new 10) /\
  (exists s1, pp_step Kx (PInterest q_all 1000) s_fresh = (s1, [], Ok tt) /\
     nm_find q_all (pp_pending s1) = Some (mkPentry bf_all (iblt_new 10) (Some (pp_now s_fresh + 1000, q_all)))).
Proof.
  split; [exists []; vm_compute; reflexivity|].
  split; [apply request_tail; [reflexivity|reflexivity|apply bf_all_ok|apply iblt_new_length|apply iblt_new_wf|right; reflexivity]|].
  split; [vm_compute; discriminate|].
  split; [eexists; split; [apply pend_six|vm_compute; reflexivity]|].
  split; [apply request_all|]. eexists. split; [apply pend_all|vm_compute; reflexivity].
Qed.

(** * C67 *)
(** whatever decoding failed before: after the next addContent, and from then on as long as no decoding fails, the
    encoding is that of the content again *)
Theorem C67_addition_repairs : forall ops1 n ops2,
  decodes_ok (sop_run (ops1 ++ [SAdd n])) ops2 -> wf_names (s_content (sop_run (ops1 ++ SAdd n :: ops2))) ->
  state_of_buffer (fst (wire_encode (sop_run (ops1 ++ SAdd n :: ops2)))) = Ok (s_content (sop_run (ops1 ++ SAdd n :: ops2))).
Proof.
  intros ops1 n ops2 Hd Hw. change (SAdd n :: ops2) with ([SAdd n] ++ ops2) in *. rewrite app_assoc in *.
  unfold sop_run in Hw |- *. rewrite fold_left_app in Hw |- *. fold (sop_run (ops1 ++ [SAdd n])) in Hw |- *.
  apply sop_run_cache; auto. intros w. rewrite sop_run_snoc. discriminate.
Qed.
Print Assumptions C67_addition_repairs.
(** a decoding attempt that fails changes nothing if the block has another type; otherwise encoding and content agree
    afterwards exactly if the elements of the block could not be told apart and the object held no encoding, or one of
    no names *)
Theorem C67_failed_decode_exactly_when : forall ops bs t v x,
  read_block bs = Some (t, v) -> snd (wire_decode (sop_run ops) bs t v) = Throw x ->
  let s := sop_run ops in
  let s' := sop_run (ops ++ [SDecode bs]) in
  (t <> 128 -> s' = s) /\
  (t = 128 ->
    (state_of_buffer (fst (wire_encode s')) = Ok (s_content s') <->
     parse_elems v = None /\ match s_wire s with None => True | Some w => state_of_buffer w = Ok [] end)).
Proof.
  intros ops bs t v x Rb Ht s s'. subst s s'. rewrite sop_run_snoc. cbn [sop_step]. rewrite Rb.
  set (s := sop_run ops) in *. unfold wire_decode in *. destruct (t =? TYPE_PSYNC_CONTENT) eqn:Et.
  - apply N.eqb_eq in Et. split; [unfold TYPE_PSYNC_CONTENT in Et; congruence|]. intros _.
    destruct (parse_elems v) as [l|] eqn:Pe.
    + destruct (decode_elems l) as [ns o] eqn:De. cbn [fst snd] in *. subst o. split; [|intros [A _]; discriminate A].
      intros H. exfalso. cbn [wire_encode s_wire fst s_content] in H. unfold state_of_buffer in H. rewrite Rb in H.
      unfold wire_decode in H. rewrite Et, N.eqb_refl, Pe, De in H. discriminate H.
    + cbn [fst]. unfold wire_encode. cbn [s_wire s_content].
      destruct (s_wire s) as [w|]; cbn [fst]; [tauto|]. split; [auto|]. intros _. reflexivity.
  - apply N.eqb_neq in Et. split; [reflexivity|]. intros ->. destruct (Et eq_refl).
Qed.
Print Assumptions C67_failed_decode_exactly_when.
(** the case that breaks it, the two that do not, and the repair *)
Definition half_67 : bytes := [x80; x07; x07; x03; x08; x01; x61; x05; x00].
Definition torn_67 : bytes := [x80; x02; x07; x05].
Example C67_failed_decode_example :
  (exists v x, read_block half_67 = Some (128, v) /\ snd (wire_decode (sop_run []) half_67 128 v) = Throw x /\ parse_elems v <> None) /\
  (exists v x, read_block torn_67 = Some (128, v) /\ snd (wire_decode (sop_run [SAdd [mkComp 8 [x61]]]) torn_67 128 v) = Throw x /\ parse_elems v = None) /\
  s_wire (sop_run [SAdd [mkComp 8 [x61]]]) = None /\
  (exists v x, read_block [x05; x00] = Some (5, v) /\ snd (wire_decode (sop_run [SAdd []]) [x05; x00] 5 v) = Throw x) /\
  state_of_buffer (fst (wire_encode (sop_run [SDecode half_67; SAdd [mkComp 8 [x62]]]))) =
    Ok [[mkComp 8 [x61]]; [mkComp 8 [x62]]].
Proof.
  split; [do 2 eexists; split; [reflexivity|]; split; [reflexivity|vm_compute; discriminate]|].
  split; [do 2 eexists; split; [reflexivity|]; split; [reflexivity|vm_compute; reflexivity]|].
  split; [reflexivity|]. split; [do 2 eexists; split; reflexivity|]. vm_compute. reflexivity.
Qed.
