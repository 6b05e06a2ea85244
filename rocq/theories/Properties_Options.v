(** Property theorems about the constructors and their options (C122). *)
From Coq Require Import List NArith ZArith Bool Arith Lia.
From Coq.Strings Require Import Byte.
From Verif Require Import Base Mon MonFacts Iblt BaseFacts IbltFacts Tlv State NMap TlvFacts NMapFacts Codec Bloom Store
  Producer ProducerFacts Partial Full FullTrace FullFacts Consumer Options
  SpecBloom Properties_Iblt Properties_Bloom Properties_Producer Properties_Partial Properties_Full Properties_Consumer.
Import ListNotations.
Local Open Scope N_scope.

(** ** The settings are the ones given *)
Theorem C122_settings : forall w sync,
  (forall o K s, producer_with w sync o = (K, s) ->
     pc_sync K = sync /\ pc_n K = N.to_nat (po_ibf_count o) /\ pc_scheme K = po_ibf_compression o /\
     pc_hello_fresh K = po_hello_fresh o /\ pc_sync_fresh K = po_sync_fresh o /\
     pc_codec K = wo_codec w /\ pc_libm K = wo_libm w /\ pc_env K = wo_env w /\ s = pp_new K) /\
  (forall o sys K r, node_with w sync o sys = (K, r) ->
     fc_sync K = sync /\ fc_n K = N.to_nat (fo_ibf_count o) /\ fc_scheme K = fo_ibf_compression o /\
     fc_cscheme K = fo_content_compression o /\ fc_life K = fo_interest_life o /\ fc_fresh K = fo_data_fresh o /\
     fc_codec K = wo_codec w /\ fc_env K = wo_env w /\ r = fp_init K sys) /\
  (forall o K r, consumer_with w sync o = (K, r) ->
     cc_sync K = sync /\ cc_count K = co_bf_count o /\ cc_rate K = co_bf_rate o /\
     cc_libm K = wo_libm w /\ cc_env K = wo_env w /\ r = c_new K).
Proof.
  intros w sync. split; [|split]; [intros o K s [= <- <-]|intros o sys K s [= <- <-]|intros o K s [= <- <-]];
    repeat (split; [reflexivity|]); reflexivity.
Qed.
Print Assumptions C122_settings.

(** ** The settings left out *)
Theorem C122_defaults : forall w,
  popts_default = {| po_ibf_count := 40; po_ibf_compression := SNone; po_hello_fresh := 1000; po_sync_fresh := 1000 |} /\
  fopts_default w = {| fo_ibf_count := 80; fo_ibf_compression := if wo_zlib w then SZlib else SNone;
                       fo_interest_life := 1000; fo_data_fresh := 1000;
                       fo_content_compression := if wo_zlib w then SZlib else SNone |} /\
  co_bf_count copts_default = 6 /\ co_bf_rate copts_default = d_div (d_of_N 1) (d_of_N 1000) /\
  (forall count sync user, producer_old_short w count sync user =
     producer_old w count sync user (po_hello_fresh popts_default) (po_sync_fresh popts_default) (po_ibf_compression popts_default)) /\
  (forall count sync user sys, node_old_short w count sync user sys =
     node_old w count sync user (fo_interest_life (fopts_default w)) (fo_data_fresh (fopts_default w))
       (fo_ibf_compression (fopts_default w)) (fo_content_compression (fopts_default w)) sys).
Proof. intros w. repeat (split; [reflexivity|]). reflexivity. Qed.
Print Assumptions C122_defaults.

(** ** The old constructors *)
Lemma w32_small n : n < 2 ^ 32 -> w32 n = n.
Proof. intros H. apply N.mod_small. exact H. Qed.
(** a partial-sync producer: the new constructor and then addUserNode *)
Theorem C122_producer_partial : forall w count sync user hello_fresh sync_fresh sch evs,
  count < 2 ^ 32 ->
  let new := producer_with w sync {| po_ibf_count := count; po_ibf_compression := sch;
                                     po_hello_fresh := hello_fresh; po_sync_fresh := sync_fresh |} in
  let old := producer_old w count sync user hello_fresh sync_fresh sch in
  fst old = fst new /\ pp_run (fst old) (snd old) evs = pp_run (fst new) (snd new) (PAdd user :: evs).
Proof.
  intros w count sync user hf sf sch evs H. cbv zeta. unfold producer_old. rewrite (w32_small _ H).
  cbn [producer_with fst snd]. split; [reflexivity|]. unfold pp_run. cbn [run pp_step]. unfold mmod. cbn [fst].
  destruct (run _ _ _) as [[? ?]|]; reflexivity.
Qed.
Print Assumptions C122_producer_partial.
(** a full-sync node *)
Theorem C122_node_partial : forall w count sync user life fresh sch csch sys evs,
  count < 2 ^ 32 ->
  let new := node_with w sync {| fo_ibf_count := count; fo_ibf_compression := sch; fo_interest_life := life;
                                 fo_data_fresh := fresh; fo_content_compression := csch |} sys in
  let old := node_old w count sync user life fresh sch csch sys in
  fst old = fst new /\ node_run old evs = node_run new (FeApi (AAdd user) :: evs).
Proof.
  intros w count sync user life fresh sch csch sys evs H. cbv zeta. unfold node_old. rewrite (w32_small _ H).
  destruct (node_with w sync _ sys) as [K [[s o] r]]. cbn [fst]. split; [reflexivity|].
  unfold node_run. destruct r as [[]|x|u|]; [|reflexivity..]. unfold fp_run. cbn [run fp_step].
  destruct (api_call K (AAdd user) s) as [[s' o'] r'] eqn:E.
  assert (r' = Ok tt) as ->.
  { cbn [api_call] in E. unfold fp_op in E. rewrite mbind_get, mbind_lift in E. cbn [cstep] in E. rewrite mbind_mod in E. unfold memit in E. injection E as _ _ <-. reflexivity. }
  destruct (run (fp_step K) s' evs) as [[s2 o2]|]; [rewrite app_assoc|]; reflexivity.
Qed.
Print Assumptions C122_node_partial.
(** a consumer: unsigned int and uint32_t are the same type, so nothing is lost *)
Theorem C122_consumer : forall w count rate sync, count < 2 ^ 32 ->
  consumer_old w count rate sync = consumer_with w sync {| co_bf_count := count; co_bf_rate := rate |}.
Proof. intros w count rate sync H. unfold consumer_old. rewrite (w32_small _ H). reflexivity. Qed.
Print Assumptions C122_consumer.

(** ** Counts that do not fit *)
Lemma insert_none h : iblt_insert (iblt_new 0) h = UB UbModZero.
Proof. apply iblt_update_zero. reflexivity. Qed.
Lemma publish_none user q : q = None \/ (exists v, q = Some v /\ 0 < v) ->
  core_publish user q (fst (core_add user (core_new 0))) = UB UbModZero.
Proof.
  intros Q. unfold core_add. cbn [core_new k_prefixes nm_find fst]. unfold core_publish. cbn [k_prefixes]. 
  rewrite nm_find_set_same.
  assert ((publish_seq 0 q <=? 0) = false) as P.
  { destruct Q as [->|(v & -> & V)]; [reflexivity|]. cbn [publish_seq]. apply N.leb_gt. exact V. }
  unfold core_update. cbn [k_prefixes k_iblt]. rewrite nm_find_set_same, P. cbn [N.eqb obind k_iblt core_new].
  rewrite insert_none. reflexivity.
Qed.
(** the count is reduced modulo 2^32 without notice; a multiple of 2^32 leaves a table without
    cells, and the first publishName divides by zero *)
Theorem C122_producer_refuted : forall w k sync user hello_fresh sync_fresh sch q,
  q = None \/ (exists v, q = Some v /\ 0 < v) ->
  let '(K, s) := producer_old w (k * 2 ^ 32) sync user hello_fresh sync_fresh sch in
  snd (pp_step K (PPublishName user q) s) = UB UbModZero.
Proof.
  intros w k sync user hf sf sch q Q. unfold producer_old.
  assert (w32 (k * 2 ^ 32) = 0) as -> by (apply N.mod_mul; discriminate).
  cbn [producer_with]. cbn [pp_step po_ibf_count]. unfold mmod. cbn [fst]. unfold pp_publish_name. rewrite mbind_get, mbind_lift.
  cbn [set_core pp_core pp_new pc_n]. change (N.to_nat 0) with 0%nat. rewrite (publish_none user q Q). reflexivity.
Qed.
Print Assumptions C122_producer_refuted.
Theorem C122_node_refuted : forall w k sync user life fresh sch csch sys q,
  q = None \/ (exists v, q = Some v /\ 0 < v) ->
  let '(K, r) := node_old w (k * 2 ^ 32) sync user life fresh sch csch sys in
  snd r = Ok tt -> snd (fp_step K (FeApi (APublish user q)) (fst (fst r))) = UB UbModZero.
Proof.
  intros w k sync user life fresh sch csch sys q Q. unfold node_old.
  assert (w32 (k * 2 ^ 32) = 0) as -> by (apply N.mod_mul; discriminate).
  cbn [node_with fo_ibf_count]. change (N.to_nat 0) with 0%nat.
  set (K := mkFcfg _ _ _ _ _ _ _ _ _). unfold fp_init. rewrite send_eq. cbn [fp_blank f_wait].
  assert (forall s, f_core s = core_new 0 -> 
    let '(s', o', r') := api_call K (AAdd user) s in r' = Ok tt -> snd (fp_step K (FeApi (APublish user q)) s') = UB UbModZero) as G.
  { intros s Hs. cbn [api_call]. unfold fp_op. rewrite mbind_get, mbind_lift. cbn [cstep]. rewrite mbind_mod. unfold memit. intros _.
    cbn [fp_step api_call]. unfold fp_publish_name. rewrite mbind_get.
    assert (f_core (fset_core (fst (core_add user (f_core s))) s) = fst (core_add user (core_new 0))) as C by (rewrite Hs; reflexivity).
    unfold get_seq. rewrite C. 
    assert (nm_find user (k_prefixes (fst (core_add user (core_new 0)))) = Some 0) as ->.
    { unfold core_add. cbn [core_new k_prefixes nm_find fst]. apply nm_find_set_same. }
    unfold fp_op. rewrite !mbind_assoc, mbind_get, !mbind_assoc, mbind_lift. rewrite C. cbn [cstep].
    rewrite (publish_none user q Q). reflexivity. }
  change (f_core _) with (core_new 0). 
  destruct (Full.sync_name K (core_new 0)) as [n|x|u|]; try (cbn [snd]; discriminate).
  destruct (_ && _).
  - specialize (G (stopped (fp_blank K sys)) eq_refl). destruct (api_call K (AAdd user) _) as [[s' o'] r']. exact G.
  - specialize (G (sent K n (stopped (fp_blank K sys))) eq_refl). destruct (api_call K (AAdd user) _) as [[s' o'] r']. exact G.
Qed.
Print Assumptions C122_node_refuted.

(** hypotheses: a producer and a node built the old way for one expected entry; each has its user
    prefix, publishes, and answers with the freshness of the defaults *)
Definition w_ex : world := mkWorld (pc_codec Kx) libm_example env_example (pc_fuel Kx) false.
Example C122_example :
  (let '(K, s) := producer_old_short w_ex 1 syncp pa in
   exists s' d, pp_run K s [PPublishName pa None; PInterest (syncp ++ [HELLO]) 1000] = Some (s', [d]) /\
     d_fresh d = 1000 /\ get_seq pa (pp_core s') = Some 1) /\
  (exists s' o, node_run (node_old_short w_ex 1 syncp pa 0) [FeApi (APublish pa None)] = Some (s', o) /\
     get_seq pa (f_core s') = Some 1 /\ o <> []) /\
  (exists s', snd (consumer_old w_ex 1 (rate 1) syncp) = Ok s').
Proof.
  split; [|split].
  - cbv zeta. unfold producer_old_short. eexists _, _. split; [vm_compute; reflexivity|]. split; vm_compute; reflexivity.
  - eexists _, _. split; [vm_compute; reflexivity|]. split; [vm_compute; reflexivity|discriminate].
  - eexists. vm_compute. reflexivity.
Qed.
(** hypotheses of [C122_node_refuted]: the construction itself succeeds *)
Example C122_refuted_example :
  snd (snd (node_old w_ex (1 * 2 ^ 32) syncp pa 1000 1000 SNone SNone 0)) = Ok tt.
Proof. vm_compute. reflexivity. Qed.
