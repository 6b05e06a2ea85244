(** Property theorems about partial producers (C34-C41, C68). *)
From Coq Require Import List NArith ZArith Bool Arith Lia Sorted.
From Coq.Strings Require Import Byte.
From Verif Require Import Base Mon MonFacts Iblt BaseFacts IbltFacts SpecIblt HonestFacts IbltProps
  Tlv State NMap TlvFacts NMapFacts Codec CodecFacts Properties_Iblt Bloom SpecBloom BloomFacts
  Properties_Bloom Store StoreFacts Producer SpecProducer ProducerFacts Properties_Producer
  Partial SpecPartial PartialFacts PartialSteps.
Import ListNotations.
Local Open Scope N_scope.

(** ** A configuration for the examples *)
Definition env_example : env :=
  mkEnv (fun i => 1000 + N.of_nat i) (fun i => [n2b (N.of_nat i)]) (fun _ => 0) (fun n => Ok n).
Definition syncp : name := [gen [x70]].
Definition Kx : pcfg := mkPcfg syncp 10 SNone 1000 1000 codec_none libm_example env_example 100.
Definition state_after (K : pcfg) (evs : list pev) : pp :=
  match pp_run K (pp_new K) evs with Some (s, _) => s | None => pp_new K end.
(** a filter that matches every name, and one that matches almost none *)
Definition c_one : comp := number_comp TYPE_GENERIC 1.
Definition all_ones : comp := gen [xff; xff].
Definition one_bit : comp := gen [x01; x00].
Definition request_comps (filter : comp) (t : table) : list comp :=
  [c_one; c_one; filter; gen (table_bytes t)].
Definition request (K : pcfg) (filter : comp) (t : table) : name :=
  pc_sync K ++ SYNC :: request_comps filter t.
Definition bf_with (b : bloom) (c : comp) : bloom := mkBloom (b_salt b) (cval c) (b_size b) 1 (rate 1).
Definition bf_all : bloom := Eval vm_compute in bf_with b_ex all_ones.
Definition bf_bit : bloom := Eval vm_compute in bf_with b_ex one_bit.
Lemma bf_of c : length (cval c) = 2%nat ->
  bloom_of_comps libm_example c_one c_one c = Ok (bf_with b_ex c).
Proof.
  intros L. unfold bloom_of_comps. change (to_number c_one) with (Ok 1). cbn [obind].
  change (w32 1) with 1. change (d_div (d_of_N 1) (d_of_N 1000)) with (rate 1).
  unfold bloom_of_comp. rewrite b_ex_ok. cbn [obind]. rewrite L. reflexivity.
Qed.
Lemma bf_all_ok : bloom_of_comps libm_example c_one c_one all_ones = Ok bf_all.
Proof. rewrite bf_of; reflexivity. Qed.
Lemma bf_bit_ok : bloom_of_comps libm_example c_one c_one one_bit = Ok bf_bit.
Proof. rewrite bf_of; reflexivity. Qed.
Lemma bf_all_sound : bloom_sound bf_all.
Proof. split; [vm_compute; discriminate|vm_compute; reflexivity]. Qed.
Lemma bf_bit_sound : bloom_sound bf_bit.
Proof. split; [vm_compute; discriminate|vm_compute; reflexivity]. Qed.

Lemma reach_core K evs s o : Forall pev_wf evs -> pp_run K (pp_new K) evs = Some (s, o) ->
  Forall cop_wf (history evs) /\ crun (core_new (pc_n K)) (history evs) = Ok (pp_core s).
Proof. intros W R. split; [apply history_wf; auto|]. apply (pp_run_core _ _ _ _ _ R). Qed.

(** the names a decoded difference calls for *)
Lemma names_of_difference K evs s o bf t d :
  Forall pev_wf evs -> collision_free (pc_n K) (history evs) ->
  pp_run K (pp_new K) evs = Some (s, o) ->
  iblt_sub (pc_fuel K) (k_iblt (pp_core s)) t = Ok d -> bloom_sound bf ->
  exists names, matching (k_bimap (pp_core s)) bf (positive d) = Ok names /\ NoDup names /\
    forall nm, In nm names <->
      In nm (live (pp_core s)) /\ In (name_hash nm) (positive d) /\
      bloom_contains bf (name_prefix_back nm 1) = Ok true.
Proof.
  intros W Hc R D B. destruct (reach_core K evs s o W R) as [W' C].
  pose proof (C30_ibf_is_current_names _ _ _ W' C Hc) as [_ Hl].
  destruct (matching_total (k_bimap (pp_core s)) bf (positive d) B) as (names & M).
  exists names. split; auto. split.
  - eapply matching_NoDup; [|intros h h' nm H1 H2|exact M].
    + apply nsorted_NoDup. apply (iblt_sub_sorted _ _ _ _ D).
    + apply Hl in H1, H2. destruct H1 as [_ ->], H2 as [_ ->]. reflexivity.
  - intros nm. rewrite (matching_In _ _ _ _ M). split.
    + intros (h & H1 & H2 & H3). apply Hl in H2 as [H2 ->]. auto.
    + intros (H1 & H2 & H3). exists (name_hash nm). split; auto. split; auto. apply Hl. auto.
Qed.

(** * C34 *)
Theorem C34_reply_content : forall K evs s o iname rname bf t l d c,
  scheme_ok (pc_codec K) (pc_scheme K) ->
  Forall pev_wf evs -> collision_free (pc_n K) (history evs) ->
  pp_run K (pp_new K) evs = Some (s, o) ->
  sync_request_for K iname rname bf t -> bloom_sound bf ->
  reply_from_store iname (pp_pub s) = None ->
  iblt_sub (pc_fuel K) (k_iblt (pp_core s)) t = Ok d -> can_decode d = true ->
  carries_ibf (pc_codec K) (pc_scheme K) c (k_iblt (pp_core s)) ->
  exists names,
    NoDup names /\
    (forall nm, In nm names <->
       In nm (live (pp_core s)) /\ In (name_hash nm) (positive d) /\
       bloom_contains bf (name_prefix_back nm 1) = Ok true) /\
    (names <> [] \/ (pc_n K / 2 <= length (positive d) + length (negative d))%nat ->
     exists s' o', pp_step K (PInterest iname l) s = (s', o', Ok tt) /\
       published K s s' iname (rname ++ [c]) names (pc_sync_fresh K) o' /\
       pp_core s' = pp_core s /\ pp_pending s' = pp_pending s).
Proof.
  intros K evs s o iname rname bf t l d c Sk W Hc R Hq B Hr D Cd Hi.
  destruct (names_of_difference K evs s o bf t d W Hc R D B) as (names & M & Nd & Hn).
  exists names. split; auto. split; auto. intros Ha.
  rewrite (step_decoded _ _ _ _ _ _ _ _ _ _ Sk Hq Hr D Cd M Hi).
  assert (Nat.leb (threshold (pc_n K)) (diff_size d) ||
          negb (match names with [] => true | _ => false end) = true) as ->.
  { destruct Ha as [Ha|Ha]; [destruct names; [contradiction|]; apply orb_true_r|].
    apply orb_true_iff. left. apply Nat.leb_le. exact Ha. }
  destruct (request_nonempty _ _ _ _ _ Hq) as [Hne _].
  destruct (pp_publish_total K iname (rname ++ [c]) (encode_names names) (pc_sync_fresh K) s Hne)
    as (p & o' & P & ->).
  exists (set_pub p s), o'. auto.
Qed.
Print Assumptions C34_reply_content.

Lemma exact_at K evs s o ks t : Forall pev_wf evs -> collision_free (pc_n K) (history evs) ->
  pp_run K (pp_new K) evs = Some (s, o) -> NoDup ks -> IbfOf (pc_n K) ks t ->
  exact_difference K (pp_core s) ks ->
  exists d, iblt_sub (pc_fuel K) (k_iblt (pp_core s)) t = Ok d /\
    (can_decode d = true ->
       (forall h, In h (positive d) <-> In h (map name_hash (live (pp_core s))) /\ ~ In h ks) /\
       (forall h, In h (negative d) <-> In h ks /\ ~ In h (map name_hash (live (pp_core s))))) /\
    (can_decode d = true <->
     peelable (n_entries (pc_n K)) (only_in (map name_hash (live (pp_core s))) ks ++
                                    only_in ks (map name_hash (live (pp_core s))))).
Proof.
  intros W Hc R Nk Ht [X F]. destruct (reach_core K evs s o W R) as [W' C].
  pose proof (C30_ibf_is_current_names _ _ _ W' C Hc) as [Hi _].
  assert (NoDup (map name_hash (live (pp_core s)))) as Nl by (apply (Hc (history evs) [] _); [rewrite app_nil_r; auto|exact C]).
  destruct (iblt_sub_honest (pc_n K) _ ks _ t (pc_fuel K) Nl Nk Hi Ht X F) as (d & E & _ & _ & Dp & De).
  exists d. auto.
Qed.

(** the consumer's view: its IBF holds the hashes [ks]; the reply is what it lacks *)
Theorem C34_reply_to_honest_consumer : forall K evs s o iname rname bf t l ks c,
  scheme_ok (pc_codec K) (pc_scheme K) ->
  Forall pev_wf evs -> collision_free (pc_n K) (history evs) ->
  pp_run K (pp_new K) evs = Some (s, o) ->
  sync_request_for K iname rname bf t -> bloom_sound bf ->
  NoDup ks -> IbfOf (pc_n K) ks t -> exact_difference K (pp_core s) ks ->
  peelable (n_entries (pc_n K)) (only_in (map name_hash (live (pp_core s))) ks ++
                                 only_in ks (map name_hash (live (pp_core s)))) ->
  reply_from_store iname (pp_pub s) = None ->
  carries_ibf (pc_codec K) (pc_scheme K) c (k_iblt (pp_core s)) ->
  (exists nm, In nm (live (pp_core s)) /\ ~ In (name_hash nm) ks /\
              bloom_contains bf (name_prefix_back nm 1) = Ok true) ->
  exists names s' o',
    NoDup names /\
    (forall nm, In nm names <->
       In nm (live (pp_core s)) /\ ~ In (name_hash nm) ks /\
       bloom_contains bf (name_prefix_back nm 1) = Ok true) /\
    pp_step K (PInterest iname l) s = (s', o', Ok tt) /\
    published K s s' iname (rname ++ [c]) names (pc_sync_fresh K) o'.
Proof.
  intros K evs s o iname rname bf t l ks c Sk W Hc R Hq B Nk Ht X P Hr Hi (nm0 & H1 & H2 & H3).
  destruct (exact_at K evs s o ks t W Hc R Nk Ht X) as (d & D & De & Dp).
  apply Dp in P. destruct (De P) as [Hp _].
  destruct (C34_reply_content K evs s o iname rname bf t l d c Sk W Hc R Hq B Hr D P Hi)
    as (names & Nn & Hn & Ha).
  assert (forall nm, In nm (live (pp_core s)) -> (In (name_hash nm) (positive d) <-> ~ In (name_hash nm) ks)) as Q.
  { intros nm Hl. rewrite Hp. split; [tauto|]. intros Hk. split; auto. apply in_map. auto. }
  destruct Ha as (s' & o' & E & Pu & _).
  { left. intros ->. apply (Hn nm0). split; auto. split; auto. apply Q; auto. }
  exists names, s', o'. split; auto. split; auto. intros nm. rewrite Hn. split; intros (A1 & A2 & A3).
  - split; auto. split; auto. apply Q; auto.
  - split; auto. split; auto. apply Q; auto.
Qed.
Print Assumptions C34_reply_to_honest_consumer.

Definition evs_ex : list pev :=
  [PAdd pa; PAdd pb; PPublishName pa None; PPublishName pb (Some 5); PTick 20; PPublishName pa (Some 4)].
Definition s_ex : pp := state_after Kx evs_ex.
Lemma reach_ex : exists o, pp_run Kx (pp_new Kx) evs_ex = Some (s_ex, o).
Proof. eexists. vm_compute. reflexivity. Qed.
Lemma free_ex : collision_free (pc_n Kx) (history evs_ex).
Proof.
  intros pre post k E H. eapply check_free_ok; [|exact E|exact H]. vm_compute. reflexivity.
Qed.
Lemma wf_ex : Forall pev_wf evs_ex. Proof. repeat constructor. Qed.
Lemma request_tail K filter bf t tail : pc_scheme K = SNone -> pc_libm K = libm_example ->
  bloom_of_comps libm_example c_one c_one filter = Ok bf ->
  length t = n_entries (pc_n K) -> Forall wf_cell t -> length tail = 0%nat \/ length tail = 2%nat ->
  sync_request_for K (request K filter t ++ tail) (request K filter t) bf t.
Proof.
  intros Es El Eb L Wf Ht. exists c_one, c_one, filter, (gen (table_bytes t)), tail.
  split; [reflexivity|]. split; [reflexivity|]. split; [exact Ht|]. rewrite El, Es. split; [exact Eb|].
  destruct (initialize_append codec_none SNone [] t [gen (table_bytes t)] (iblt_new (pc_n K)))
    as (c & E & Hi); auto using lossless_none.
  - rewrite iblt_new_length. symmetry. exact L.
  - injection E as <-. exact Hi.
Qed.
Lemma request_ex K filter bf t : pc_scheme K = SNone -> pc_libm K = libm_example ->
  bloom_of_comps libm_example c_one c_one filter = Ok bf ->
  length t = n_entries (pc_n K) -> Forall wf_cell t ->
  sync_request_for K (request K filter t) (request K filter t) bf t.
Proof.
  intros Es El Eb L Wf. rewrite <- (app_nil_r (request K filter t)) at 1.
  apply request_tail; auto.
Qed.
(** an interest that stays pending *)
Definition pend (iname rname : name) (bf : bloom) (t : table) (l : N) (s : pp) : pp :=
  set_pending (add_pending rname bf t (pp_now s + l, iname) (pp_pending s)) s.
Lemma pend_step K s iname rname l bf t : pc_scheme K = SNone ->
  sync_request_for K iname rname bf t -> reply_from_store iname (pp_pub s) = None ->
  iblt_sub (pc_fuel K) (k_iblt (pp_core s)) t = Ok (mkDiff true [] []) ->
  Nat.leb (threshold (pc_n K)) 0 = false ->
  pp_step K (PInterest iname l) s = (pend iname rname bf t l s, [], Ok tt).
Proof.
  intros Es Hq Hr D Ht.
  destruct (append_cases K rname (k_iblt (pp_core s))) as (c & _ & Hc); [left; exact Es|].
  rewrite (step_decoded K s iname rname l bf t _ [] c (or_introl Es) Hq Hr D eq_refl eq_refl Hc).
  unfold diff_size. cbn [positive negative length Nat.add]. rewrite Ht. reflexivity.
Qed.
Lemma run_cons K e evs s s1 o1 x : pp_step K e s = (s1, o1, Ok x) ->
  pp_run K s (e :: evs) =
  match pp_run K s1 evs with Some (s2, o2) => Some (s2, o1 ++ o2) | None => None end.
Proof. intros E. unfold pp_run. cbn [run]. rewrite E. reflexivity. Qed.
Lemma run_quiet K e evs s s1 x r : pp_step K e s = (s1, [], Ok x) -> pp_run K s1 evs = r ->
  pp_run K s (e :: evs) = r.
Proof. intros E <-. rewrite (run_cons _ _ _ _ _ _ _ E). destruct (pp_run K s1 evs) as [[? ?]|]; reflexivity. Qed.
Lemma iblt_new_wf n : Forall wf_cell (iblt_new n).
Proof. apply (IbfOf_wf_cells n []); [constructor|reflexivity]. Qed.
Lemma request_all :
  sync_request_for Kx (request Kx all_ones (iblt_new 10)) (request Kx all_ones (iblt_new 10)) bf_all (iblt_new 10).
Proof.
  apply request_ex; [reflexivity|reflexivity|apply bf_all_ok|apply iblt_new_length|apply iblt_new_wf].
Qed.
Lemma request_bit :
  sync_request_for Kx (request Kx one_bit (iblt_new 10)) (request Kx one_bit (iblt_new 10)) bf_bit (iblt_new 10).
Proof.
  apply request_ex; [reflexivity|reflexivity|apply bf_bit_ok|apply iblt_new_length|apply iblt_new_wf].
Qed.
Definition d_ex : iblt_diff :=
  Eval vm_compute in
  (ok_or (mkDiff false [] []) (iblt_sub (pc_fuel Kx) (k_iblt (pp_core s_ex)) (iblt_new 10))).
Lemma d_ex_ok : iblt_sub (pc_fuel Kx) (k_iblt (pp_core s_ex)) (iblt_new 10) = Ok d_ex.
Proof. vm_compute. reflexivity. Qed.

(** two updates unknown to a consumer that asks for everything *)
Example C34_example :
  scheme_ok (pc_codec Kx) (pc_scheme Kx) /\ Forall pev_wf evs_ex /\
  collision_free (pc_n Kx) (history evs_ex) /\ (exists o, pp_run Kx (pp_new Kx) evs_ex = Some (s_ex, o)) /\
  sync_request_for Kx (request Kx all_ones (iblt_new 10)) (request Kx all_ones (iblt_new 10))
    bf_all (iblt_new 10) /\ bloom_sound bf_all /\
  reply_from_store (request Kx all_ones (iblt_new 10)) (pp_pub s_ex) = None /\
  NoDup (@nil N) /\ IbfOf (pc_n Kx) [] (iblt_new 10) /\ exact_difference Kx (pp_core s_ex) [] /\
  live (pp_core s_ex) = [append_number pa 4; append_number pb 5] /\
  exists d, iblt_sub (pc_fuel Kx) (k_iblt (pp_core s_ex)) (iblt_new 10) = Ok d /\ can_decode d = true /\
    length (positive d) = 2%nat.
Proof.
  split; [left; reflexivity|]. split; [apply wf_ex|]. split; [apply free_ex|]. split; [apply reach_ex|].
  split; [apply request_all|]. split; [apply bf_all_sound|]. split; [vm_compute; reflexivity|].
  split; [constructor|]. split; [reflexivity|]. split.
  - split; [|apply Nat.ltb_lt; vm_compute; reflexivity].
    apply no_coincidence_small.
    + apply signed_diff_keys; [|constructor]. apply check_nodup. vm_compute. reflexivity.
    + apply signed_diff_signs.
    + apply Nat.leb_le. vm_compute. reflexivity.
  - split; [vm_compute; reflexivity|].
    exists d_ex. split; [apply d_ex_ok|]. split; vm_compute; reflexivity.
Qed.

(** * C35: refuted for configured sizes 0 and 1, whose threshold is 0 *)
Theorem C35_current_consumers_wait_partial : forall K evs s o iname rname bf t l d c,
  scheme_ok (pc_codec K) (pc_scheme K) ->
  Forall pev_wf evs -> collision_free (pc_n K) (history evs) ->
  pp_run K (pp_new K) evs = Some (s, o) ->
  sync_request_for K iname rname bf t -> bloom_sound bf ->
  reply_from_store iname (pp_pub s) = None ->
  iblt_sub (pc_fuel K) (k_iblt (pp_core s)) t = Ok d -> can_decode d = true ->
  carries_ibf (pc_codec K) (pc_scheme K) c (k_iblt (pp_core s)) ->
  (forall nm, In nm (live (pp_core s)) -> In (name_hash nm) (positive d) ->
     bloom_contains bf (name_prefix_back nm 1) = Ok false) ->
  (length (positive d) + length (negative d) < pc_n K / 2)%nat ->
  exists s', pp_step K (PInterest iname l) s = (s', [], Ok tt) /\
    pp_core s' = pp_core s /\ pp_pub s' = pp_pub s /\
    nm_find rname (pp_pending s') = Some (mkPentry bf t (Some (pp_now s + l, iname))) /\
    forall key, key <> rname -> nm_find key (pp_pending s') = nm_find key (pp_pending s).
Proof.
  intros K evs s o iname rname bf t l d c Sk W Hc R Hq B Hr D Cd Hi Hno Hd.
  destruct (names_of_difference K evs s o bf t d W Hc R D B) as (names & M & Nd & Hn).
  assert (names = []) as ->.
  { destruct names as [|nm ns]; auto. destruct (proj1 (Hn nm) (or_introl eq_refl)) as (H1 & H2 & H3).
    rewrite (Hno nm H1 H2) in H3. discriminate. }
  rewrite (step_decoded _ _ _ _ _ _ _ _ _ _ Sk Hq Hr D Cd M Hi).
  replace (Nat.leb (threshold (pc_n K)) (diff_size d)) with false
    by (symmetry; apply Nat.leb_gt; exact Hd). cbn [orb negb].
  eexists. split; [reflexivity|]. cbn [pp_core pp_pub set_pending pp_pending].
  split; [reflexivity|]. split; [reflexivity|]. split.
  - rewrite add_pending_find, name_eqb_refl.
    destruct (nm_find rname (pp_pending s)) as [y|] eqn:F; auto.
    pose proof (po_entry _ _ (pp_run_ok _ _ _ _ R) _ _ F) as Hy.
    destruct (sync_request_for_fun _ _ _ _ _ _ _ _ Hq Hy) as [<- <-]. reflexivity.
  - intros key Hk. rewrite add_pending_find. destruct (name_eqb key rname) eqn:E; auto.
    apply name_eqb_eq in E. contradiction.
Qed.
Print Assumptions C35_current_consumers_wait_partial.

(** a consumer that carries the producer's current IBF *)
Theorem C35_current_ibf_waits_partial : forall K evs s o iname rname bf l c,
  scheme_ok (pc_codec K) (pc_scheme K) ->
  Forall pev_wf evs -> collision_free (pc_n K) (history evs) ->
  pp_run K (pp_new K) evs = Some (s, o) ->
  sync_request_for K iname rname bf (k_iblt (pp_core s)) -> bloom_sound bf ->
  reply_from_store iname (pp_pub s) = None ->
  carries_ibf (pc_codec K) (pc_scheme K) c (k_iblt (pp_core s)) ->
  (2 <= pc_n K)%nat -> (0 < pc_fuel K)%nat ->
  exists s', pp_step K (PInterest iname l) s = (s', [], Ok tt) /\ pp_pub s' = pp_pub s /\
    nm_find rname (pp_pending s') =
      Some (mkPentry bf (k_iblt (pp_core s)) (Some (pp_now s + l, iname))).
Proof.
  intros K evs s o iname rname bf l c Sk W Hc R Hq B Hr Hi H2 Hf.
  destruct (reach_core K evs s o W R) as [W' C].
  pose proof (C30_ibf_is_current_names _ _ _ W' C Hc) as [Hi' _].
  assert (NoDup (map name_hash (live (pp_core s)))) as Nl
    by (apply (Hc (history evs) [] _); [rewrite app_nil_r; auto|exact C]).
  set (a := map name_hash (live (pp_core s))) in *.
  assert (only_in a a = []) as Ho.
  { destruct (only_in a a) as [|x l0] eqn:E; auto.
    assert (In x (only_in a a)) as Hx by (rewrite E; left; auto). apply only_in_In in Hx. tauto. }
  assert (signed_diff a a = []) as Hs by (unfold signed_diff; rewrite Ho; reflexivity).
  destruct (iblt_sub_honest (pc_n K) a a (k_iblt (pp_core s)) (k_iblt (pp_core s)) (pc_fuel K)) as (d & E & Dp & Dn & De & _); auto.
  { rewrite Hs. intros l0 _ Hin Hl. destruct l0 as [|x l0]; [simpl in Hl; lia|].
    destruct (Hin x (or_introl eq_refl)). }
  { rewrite Hs. exact Hf. }
  rewrite Ho in De. assert (can_decode d = true) as Cd.
  { apply De. exists []. split; [constructor|exact I]. }
  assert (positive d = [] /\ negative d = []) as [P N].
  { split; [destruct (positive d) as [|x ?]; auto; destruct (Dp x (or_introl eq_refl)); tauto|
            destruct (negative d) as [|x ?]; auto; destruct (Dn x (or_introl eq_refl)); tauto]. }
  destruct (C35_current_consumers_wait_partial K evs s o iname rname bf (k_iblt (pp_core s)) l d c)
    as (s' & E' & _ & Hp & Hf' & _); auto.
  - rewrite P. intros nm _ [].
  - rewrite P, N. cbn [length Nat.add]. apply (Nat.div_str_pos (pc_n K) 2). lia.
  - eauto.
Qed.
Print Assumptions C35_current_ibf_waits_partial.

Definition K1 : pcfg := mkPcfg syncp 1 SNone 1000 1000 codec_none libm_example env_example 100.
Theorem C35_small_size_refuted : exists K s iname bf o,
  scheme_ok (pc_codec K) (pc_scheme K) /\ pp_run K (pp_new K) [] = Some (s, []) /\
  sync_request_for K iname iname bf (k_iblt (pp_core s)) /\ bloom_sound bf /\
  outs (pp_step K (PInterest iname 1000) s) = o /\ o <> [].
Proof.
  assert (sync_request_for K1 (request K1 all_ones (iblt_new 1)) (request K1 all_ones (iblt_new 1)) bf_all (iblt_new 1)) as Q
    by (apply request_ex; [reflexivity|reflexivity|apply bf_all_ok|apply iblt_new_length|apply iblt_new_wf]).
  exists K1, (pp_new K1), (request K1 all_ones (iblt_new 1)), bf_all.
  eexists. split; [left; reflexivity|]. split; [reflexivity|]. split; [exact Q|]. split; [apply bf_all_sound|].
  split; [reflexivity|].
  rewrite (step_decoded K1 (pp_new K1) _ _ 1000 bf_all (iblt_new 1) (mkDiff true [] []) []
    (gen (table_bytes (iblt_new 1))) (or_introl eq_refl) Q eq_refl eq_refl eq_refl eq_refl (conj eq_refl eq_refl)).
  intros H. apply (f_equal (@length data)) in H. revert H. vm_compute. discriminate.
Qed.
Print Assumptions C35_small_size_refuted.

Example C35_example :
  exists d, iblt_sub (pc_fuel Kx) (k_iblt (pp_core s_ex)) (iblt_new 10) = Ok d /\ can_decode d = true /\
    (length (positive d) + length (negative d) < pc_n Kx / 2)%nat /\
    bloom_contains bf_bit (name_prefix_back (append_number pa 4) 1) = Ok false /\
    bloom_contains bf_bit (name_prefix_back (append_number pb 5) 1) = Ok false.
Proof.
  exists d_ex. split; [apply d_ex_ok|]. split; [vm_compute; reflexivity|].
  split; [apply Nat.ltb_lt; vm_compute; reflexivity|]. split; vm_compute; reflexivity.
Qed.

(** * C36 *)
Theorem C36_nack_iff_undecodable : forall K evs s o iname l s' o' r,
  scheme_ok (pc_codec K) (pc_scheme K) ->
  pp_run K (pp_new K) evs = Some (s, o) ->
  pp_step K (PInterest iname l) s = (s', o', r) ->
  ((exists d, In d o' /\ d_type d = AppNack) <->
   reply_from_store iname (pp_pub s) = None /\
   exists rname bf t d, sync_request_for K iname rname bf t /\
     iblt_sub (pc_fuel K) (k_iblt (pp_core s)) t = Ok d /\ can_decode d = false).
Proof.
  intros K evs s o iname l s' o' r Sk R E. split.
  - intros (x & Hx & Hy). destruct (pp_step_ok _ _ _ _ _ _ (pp_run_ok _ _ _ _ R) E) as (_ & _ & _ & [B|(n & l' & [= <- <-] & Hn)]).
    + rewrite Forall_forall in B. rewrite (B x Hx) in Hy. discriminate.
    + exact Hn.
  - intros (Hr & rname & bf & t & d & Hq & D & Cd).
    destruct (append_cases K rname (k_iblt (pp_core s)) Sk) as (c & _ & Hc).
    rewrite (step_nack _ _ _ _ _ _ _ _ _ Sk Hq Hr D Cd Hc) in E. injection E as <- <- <-.
    eexists. split; [left; reflexivity|reflexivity].
Qed.
Print Assumptions C36_nack_iff_undecodable.

Theorem C36_nack_shape : forall K s iname rname bf t l d c,
  scheme_ok (pc_codec K) (pc_scheme K) ->
  sync_request_for K iname rname bf t ->
  reply_from_store iname (pp_pub s) = None ->
  iblt_sub (pc_fuel K) (k_iblt (pp_core s)) t = Ok d -> can_decode d = false ->
  carries_ibf (pc_codec K) (pc_scheme K) c (k_iblt (pp_core s)) ->
  exists s' x, pp_step K (PInterest iname l) s = (s', [x], Ok tt) /\
    d_name x = rname ++ [c; number_comp TYPE_SEGMENT 0] /\ d_type x = AppNack /\ d_content x = [] /\
    pp_core s' = pp_core s /\ pp_pending s' = pp_pending s /\ pb_store (pp_pub s') = pb_store (pp_pub s).
Proof.
  intros K s iname rname bf t l d c Sk Hq Hr D Cd Hc.
  rewrite (step_nack _ _ _ _ _ _ _ _ _ Sk Hq Hr D Cd Hc).
  eexists _, _. split; [reflexivity|]. cbn [d_name nack_data d_type d_content].
  split; [unfold append_segment; rewrite <- app_assoc; reflexivity|]. repeat split.
Qed.
Print Assumptions C36_nack_shape.

(** no other event sends one *)
Theorem C36_only_interests : forall K evs s o e s' o' r,
  pp_run K (pp_new K) evs = Some (s, o) -> pp_step K e s = (s', o', r) ->
  (forall n l, e <> PInterest n l) -> forall d, In d o' -> d_type d = Blob.
Proof.
  intros K evs s o e s' o' r R E Hn d Hd.
  destruct (pp_step_ok _ _ _ _ _ _ (pp_run_ok _ _ _ _ R) E) as (_ & _ & _ & [B|(n & l' & -> & _)]).
  - rewrite Forall_forall in B. auto.
  - destruct (Hn n l' eq_refl).
Qed.
Print Assumptions C36_only_interests.

(** an IBF from which nothing can be peeled: all cells hold count 2 *)
Definition t_junk : table := map (fun _ => mkCell 2 0 0) (iblt_new 10).
Definition d_junk : iblt_diff :=
  Eval vm_compute in (ok_or (mkDiff true [] []) (iblt_sub (pc_fuel Kx) (k_iblt (pp_core s_ex)) t_junk)).
Example C36_example :
  sync_request_for Kx (request Kx all_ones t_junk) (request Kx all_ones t_junk) bf_all t_junk /\
  reply_from_store (request Kx all_ones t_junk) (pp_pub s_ex) = None /\
  iblt_sub (pc_fuel Kx) (k_iblt (pp_core s_ex)) t_junk = Ok d_junk /\ can_decode d_junk = false.
Proof.
  split; [|split; [vm_compute; reflexivity|split; vm_compute; reflexivity]].
  apply request_ex; [reflexivity|reflexivity|apply bf_all_ok|reflexivity|].
  apply Forall_forall. intros c Hc. apply in_map_iff in Hc as (x & <- & _). repeat split; discriminate.
Qed.

(** * C37 *)
Lemma Forall2_pending_aux {A} (m0 m : nmap pentry) (P : name -> pentry -> A -> Prop) : forall fates,
  (forall k e, In (k, e) m -> nm_find k m0 = Some e) ->
  Forall2 (fun k f => exists e, nm_find k m0 = Some e /\ P k e f) (map fst m) fates ->
  Forall2 (fun kv f => P (fst kv) (snd kv) f) m fates.
Proof.
  induction m as [|[k e] m IH]; intros fates Hf F; cbn [map] in F; inversion F as [|? ? ? ? H0 Fr]; subst; constructor.
  - cbn. destruct H0 as (e' & H1 & H2). rewrite (Hf k e (or_introl eq_refl)) in H1. injection H1 as <-. exact H2.
  - apply IH; auto. intros; apply Hf; right; auto.
Qed.
Lemma Forall2_pending {A} (m : nmap pentry) (P : name -> pentry -> A -> Prop) fates :
  nm_sorted m ->
  Forall2 (fun k f => exists e, nm_find k m = Some e /\ P k e f) (nm_keys m) fates ->
  Forall2 (fun kv f => P (fst kv) (snd kv) f) m fates.
Proof. intros So F. apply (Forall2_pending_aux m); auto. intros; apply nm_In_find; auto. Qed.

Theorem C37_publish_answers_pending : forall K evs s o p q k' seq c,
  scheme_ok (pc_codec K) (pc_scheme K) ->
  Forall pev_wf (evs ++ [PPublishName p q]) ->
  pp_run K (pp_new K) evs = Some (s, o) ->
  seq_after p (history evs) <> None ->
  crun (core_new (pc_n K)) (history (evs ++ [PPublishName p q])) = Ok k' ->
  seq_after p (history (evs ++ [PPublishName p q])) = Some seq ->
  carries_ibf (pc_codec K) (pc_scheme K) c (k_iblt k') ->
  (forall key e, nm_find key (pp_pending s) = Some e -> exists f, fate_of K (k_iblt k') p seq e f) ->
  exists s' o' fates,
    pp_step K (PPublishName p q) s = (s', o', Ok tt) /\ pp_core s' = k' /\
    Forall2 (fun kv f =>
      fate_of K (k_iblt k') p seq (snd kv) f /\
      nm_find (fst kv) (pp_pending s') = match f with Kept => Some (snd kv) | _ => None end)
      (pp_pending s) fates /\
    (forall key, nm_find key (pp_pending s) = None -> nm_find key (pp_pending s') = None) /\
    replies K (pp_now s) c (pp_pub s) (combine (nm_keys (pp_pending s)) fates) (pp_pub s') o'.
Proof.
  intros K evs s o p q k' seq c Sk W R Hk Hc Hs Hi Hf.
  apply Forall_app in W as [W Wp]. destruct (reach_core K evs s o W R) as [W' C].
  assert (Forall cop_wf (history (evs ++ [PPublishName p q]))) as W2
    by (apply history_wf, Forall_app; auto).
  pose proof (C29_sequence_numbers _ _ _ p W2 Hc) as Hseq. rewrite Hs in Hseq.
  unfold history in Hc. rewrite flat_map_app in Hc. fold (history evs) in Hc.
  rewrite crun_app, C in Hc. cbn in Hc. apply obind_ok in Hc as (k1 & Hc & [= ->]).
  rewrite <- (C29_sequence_numbers _ _ _ p W' C) in Hk.
  cbn [pp_step]. unfold pp_publish_name. rewrite mbind_get, mbind_lift.
  apply obind_ok in Hc as ([k2 x] & Hp & [= ->]). rewrite Hp. cbn [fst snd]. rewrite mbind_mod.
  assert (exists v, x = Some v) as (v & ->).
  { unfold core_publish in Hp. unfold get_seq in Hk. destruct (nm_find p (k_prefixes (pp_core s))); [|contradiction].
    apply obind_ok in Hp as (k3 & _ & [= _ <-]). eauto. }
  destruct (satisfy_spec K p c seq Sk (nm_keys (pp_pending s)) (set_core k' s)) as
    (s' & o' & fates & E & Ec & En & Rp & F & G).
  - apply pp_ok_core. eapply pp_run_ok; eauto.
  - apply nm_sorted_NoDup. eapply po_sorted, pp_run_ok; eauto.
  - exact Hseq.
  - exact Hi.
  - intros k Hin. apply nm_In_keys in Hin as (e & Fe). exists e. split; auto.
    apply (Hf k e Fe).
  - exists s', o', fates. split; [exact E|]. split; [exact Ec|]. split; [|split; [|exact Rp]].
    + apply (Forall2_pending (pp_pending s)
        (fun k e f => fate_of K (k_iblt k') p seq e f /\
           nm_find k (pp_pending s') = match f with Kept => Some e | _ => None end)) in F; auto.
      eapply po_sorted, pp_run_ok; eauto.
    + intros key Hn. rewrite G; auto. rewrite nm_In_keys. intros (v' & Hv).
      cbn in Hn. congruence.
Qed.
Print Assumptions C37_publish_answers_pending.

(** the last hypothesis holds when the filters are usable and the IBFs honest *)
Theorem C37_honest_entries_decided : forall K evs s o e p seq ks,
  Forall pev_wf evs -> collision_free (pc_n K) (history evs) ->
  pp_run K (pp_new K) evs = Some (s, o) ->
  bloom_sound (pe_bf e) -> NoDup ks -> IbfOf (pc_n K) ks (pe_iblt e) ->
  exact_difference K (pp_core s) ks ->
  exists f, fate_of K (k_iblt (pp_core s)) p seq e f.
Proof.
  intros K evs s o e p seq ks W Hc R B Nk Ht X.
  destruct (exact_at K evs s o ks _ W Hc R Nk Ht X) as (d & D & _).
  destruct (can_decode d) eqn:Cd.
  - pose proof (bloom_contains_ok _ p B) as Hb. eexists. exists d. split; [exact D|]. rewrite Cd.
    eexists. split; [exact Hb|reflexivity].
  - exists Dropped, d. rewrite Cd. auto.
Qed.
Print Assumptions C37_honest_entries_decided.

Theorem C37_unknown_prefix : forall K evs s o p q,
  Forall pev_wf evs -> pp_run K (pp_new K) evs = Some (s, o) -> seq_after p (history evs) = None ->
  pp_step K (PPublishName p q) s = (s, [], Ok tt).
Proof.
  intros K evs s o p q W R Hn. destruct (reach_core K evs s o W R) as [W' C].
  destruct (C29_unknown_ignored _ _ _ p 0 W' C Hn) as (_ & _ & H).
  cbn [pp_step]. unfold pp_publish_name. rewrite mbind_get, mbind_lift, H. cbn [fst snd].
  rewrite mbind_mod. destruct s; reflexivity.
Qed.
Print Assumptions C37_unknown_prefix.

(** two pending interests, one for everything and one for almost nothing *)
Definition s_fresh : pp := state_after Kx [PAdd pa].
Definition evs_pend : list pev :=
  [PAdd pa; PInterest (request Kx all_ones (iblt_new 10)) 1000;
   PInterest (request Kx one_bit (iblt_new 10)) 1000].
Definition q_all : name := request Kx all_ones (iblt_new 10).
Definition q_bit : name := request Kx one_bit (iblt_new 10).
Definition s_pend : pp :=
  pend q_bit q_bit bf_bit (iblt_new 10) 1000 (pend q_all q_all bf_all (iblt_new 10) 1000 s_fresh).
Definition s_pend1 : pp := pend q_all q_all bf_all (iblt_new 10) 1000 s_fresh.
Lemma fresh_sub : iblt_sub (pc_fuel Kx) (k_iblt (pp_core s_fresh)) (iblt_new 10) = Ok (mkDiff true [] []).
Proof. vm_compute. reflexivity. Qed.
Lemma pend_all : pp_step Kx (PInterest q_all 1000) s_fresh = (s_pend1, [], Ok tt).
Proof.
  unfold s_pend1. apply pend_step; [reflexivity|apply request_all|vm_compute; reflexivity|apply fresh_sub|reflexivity].
Qed.
Lemma pend_bit : pp_step Kx (PInterest q_bit 1000) s_pend1 = (s_pend, [], Ok tt).
Proof.
  unfold s_pend. apply pend_step; [reflexivity|apply request_bit|vm_compute; reflexivity|apply fresh_sub|reflexivity].
Qed.
Lemma step_fresh : pp_step Kx (PAdd pa) (pp_new Kx) = (s_fresh, [], Ok tt).
Proof. vm_compute. reflexivity. Qed.
Lemma run_pend later : pp_run Kx (pp_new Kx) (evs_pend ++ later) = pp_run Kx s_pend later.
Proof.
  apply (run_quiet Kx (PAdd pa) (PInterest q_all 1000 :: PInterest q_bit 1000 :: later) _ _ _ _ step_fresh).
  apply (run_quiet Kx (PInterest q_all 1000) (PInterest q_bit 1000 :: later) _ _ _ _ pend_all).
  apply (run_quiet Kx (PInterest q_bit 1000) later _ _ _ _ pend_bit).
  reflexivity.
Qed.
Definition k_pend : core :=
  Eval vm_compute in
  (ok_or (core_new 10) (crun (core_new 10) (history (evs_pend ++ [PPublishName pa None])))).
Definition d_pend : iblt_diff :=
  Eval vm_compute in (ok_or (mkDiff false [] []) (iblt_sub (pc_fuel Kx) (k_iblt k_pend) (iblt_new 10))).
Example C37_example :
  (exists o, pp_run Kx (pp_new Kx) evs_pend = Some (s_pend, o)) /\
  length (pp_pending s_pend) = 2%nat /\
  crun (core_new 10) (history (evs_pend ++ [PPublishName pa None])) = Ok k_pend /\
  seq_after pa (history (evs_pend ++ [PPublishName pa None])) = Some 1 /\
  map pe_bf (map snd (pp_pending s_pend)) = [bf_bit; bf_all] /\
  map pe_iblt (map snd (pp_pending s_pend)) = [iblt_new 10; iblt_new 10] /\
  fate_of Kx (k_iblt k_pend) pa 1 (mkPentry bf_all (iblt_new 10) None) (Answered [append_number pa 1]) /\
  fate_of Kx (k_iblt k_pend) pa 1 (mkPentry bf_bit (iblt_new 10) None) Kept.
Proof.
  split; [exists []; rewrite <- (app_nil_r evs_pend), run_pend; reflexivity|]. split; [vm_compute; reflexivity|].
  split; [vm_compute; reflexivity|]. split; [vm_compute; reflexivity|]. split; [vm_compute; reflexivity|].
  split; [vm_compute; reflexivity|].
  assert (iblt_sub (pc_fuel Kx) (k_iblt k_pend) (iblt_new 10) = Ok d_pend) as D by (vm_compute; reflexivity).
  split; exists d_pend; (split; [exact D|]).
  - replace (can_decode d_pend) with true by reflexivity. exists true. split; vm_compute; reflexivity.
  - replace (can_decode d_pend) with true by reflexivity. exists false. split; vm_compute; reflexivity.
Qed.

(** * C38 *)
Lemma filter_len {A} (f : A -> bool) l : (length (filter f l) <= length l)%nat.
Proof. induction l as [|x l IH]; cbn; [lia|]. destruct (f x); cbn; lia. Qed.
Lemma collision_free_app n a b : collision_free n (a ++ b) -> collision_free n a.
Proof. intros H pre post k -> Hk. apply (H pre (post ++ b) k); auto. rewrite app_assoc. reflexivity. Qed.
Lemma history_app a b : history (a ++ b) = history a ++ history b.
Proof. unfold history. apply flat_map_app. Qed.
(** a name that becomes live has just been published *)
Lemma live_step K evs s o e s' o' nm :
  Forall pev_wf (evs ++ [e]) -> pp_run K (pp_new K) evs = Some (s, o) ->
  pp_run K (pp_new K) (evs ++ [e]) = Some (s', o') -> In nm (live (pp_core s')) ->
  In nm (live (pp_core s)) \/ exists p q, e = PPublishName p q /\ name_prefix_back nm 1 = p.
Proof.
  intros W R R' H. pose proof W as W0. apply Forall_app in W0 as [W0 _].
  destruct (reach_core _ _ _ _ W0 R) as [W1 C1]. destruct (reach_core _ _ _ _ W R') as [W2 C2].
  apply (C30_live_names _ _ _ nm W2 C2) in H as (p & v & Hs & Hv & ->).
  rewrite (C30_live_names _ _ _ _ W1 C1).
  rewrite history_app in Hs. unfold history in Hs at 2. cbn [flat_map] in Hs. rewrite app_nil_r in Hs.
  unfold seq_after in *. rewrite fold_left_app in Hs.
  fold (seq_after p (history evs)) in Hs |- *.
  destruct e as [p0|p0|p0 q| | | | ]; cbn [core_op fold_left seq_step] in Hs;
    try (left; exists p, v; repeat split; auto; fail).
  - destruct (name_eqb p p0); [|left; exists p, v; auto].
    destruct (seq_after p (history evs)) eqn:E; injection Hs as <-; [left; eauto|contradiction].
  - destruct (name_eqb p p0); [discriminate|left; exists p, v; auto].
  - destruct (name_eqb p p0) eqn:E; [|destruct q; left; exists p, v; auto].
    apply name_eqb_eq in E. subst p0. right. exists p, q. split; auto. apply name_prefix_back_snoc.
Qed.

Theorem C38_no_update_skipped : forall K evs s o ks key e nm,
  scheme_ok (pc_codec K) (pc_scheme K) ->
  Forall pev_wf evs -> collision_free (pc_n K) (history evs) ->
  pp_run K (pp_new K) evs = Some (s, o) ->
  NoDup ks -> exact_throughout K evs ks ->
  nm_find key (pp_pending s) = Some e -> IbfOf (pc_n K) ks (pe_iblt e) ->
  In nm (live (pp_core s)) -> bloom_contains (pe_bf e) (name_prefix_back nm 1) = Ok true ->
  In (name_hash nm) ks.
Proof.
  intros K evs s o ks key e nm Sk W Hc R Nk X. revert s o key e nm W Hc R X.
  induction evs as [|ev evs IH] using rev_ind; intros s o key e nm W Hc R X F Hi Hl Hb.
  - injection R as <- <-. discriminate F.
  - pose proof (run_snoc _ _ _ _ _ _ R) as (s1 & o1 & o2 & R1 & Es & Eo & -> & Hres).
    assert (Forall pev_wf evs) as W1 by (apply Forall_app in W; tauto).
    assert (collision_free (pc_n K) (history evs)) as Hc1
      by (rewrite history_app in Hc; apply collision_free_app in Hc; exact Hc).
    assert (exact_throughout K evs ks) as X1.
    { intros pre post s0 o0 -> R0. apply (X pre (post ++ [ev]) s0 o0); auto. rewrite app_assoc. reflexivity. }
    assert (IH1 : forall key e nm, nm_find key (pp_pending s1) = Some e ->
      IbfOf (pc_n K) ks (pe_iblt e) -> In nm (live (pp_core s1)) ->
      bloom_contains (pe_bf e) (name_prefix_back nm 1) = Ok true -> In (name_hash nm) ks)
      by (intros; eapply IH; eauto).
    clear IH. destruct (pp_step K ev s1) as [[s0 o0] r0] eqn:E. cbn in Es, Eo, Hres. subst s0 o0.
    pose proof (pp_run_ok _ _ _ _ R1) as Hok.
    destruct (pp_step_ok _ _ _ _ _ _ Hok E) as (_ & Ch & _ & _).
    destruct (live_step K evs s1 o1 ev s _ nm W R1 R Hl) as [Hl1|(p & q & -> & Hp)].
    + destruct (Ch _ _ F) as [F1|[(n & l & -> & Hq & _ & _ & d & D & Cd & M & _)|(y & dl & n & -> & Fy & -> & _)]].
      * eauto.
      * destruct (in_dec N.eq_dec (name_hash nm) ks) as [|Hn]; auto. exfalso.
        assert (exact_difference K (pp_core s1) ks) as Xd
          by (apply (X1 evs [] s1 o1); [rewrite app_nil_r; auto|auto]).
        destruct (exact_at K evs s1 o1 ks _ W1 Hc1 R1 Nk Hi Xd) as (d' & D' & De & _).
        rewrite D in D'. injection D' as <-. destruct (De Cd) as [Dp _].
        assert (In nm []) as [].
        { apply (matching_In _ _ _ _ M). exists (name_hash nm). split; [|split; auto].
          - apply Dp. split; auto. apply in_map. exact Hl1.
          - destruct (reach_core _ _ _ _ W1 R1) as [W' C].
            apply (C30_ibf_is_current_names _ _ _ W' C Hc1). auto. }
      * cbn in Hi, Hb. eauto.
    + (* the entry survived a publication of the prefix of [nm] *)
      subst p. cbn [pp_step] in E. unfold pp_publish_name in E. rewrite mbind_get, mbind_lift in E.
      destruct (core_publish _ q (pp_core s1)) as [[k x]|ex|u|] eqn:P.
      * rewrite mbind_mod in E. cbn [fst snd] in E. destruct x as [v|].
        -- pose proof (satisfy_no_throw K (name_prefix_back nm 1) (nm_keys (pp_pending s1)) Sk (set_core k s1)) as Hnt.
           rewrite E in Hnt. cbn in Hnt.
           destruct Hres as [([] & ->)|(ex & ->)]; [|destruct (Hnt ex eq_refl)].
           pose proof (satisfy_ok _ _ _ _ _ _ _ (pp_ok_core _ _ k Hok) E) as (_ & _ & S2 & _).
           pose proof (satisfy_kept _ _ _ _ _ _ key e (pp_ok_core _ _ k Hok) E) as Hk.
           rewrite Hk in Hb; [discriminate| |exact F]. apply nm_In_keys. exists e. apply (S2 key e F).
        -- injection E as <- _ _. unfold core_publish in P.
           destruct (nm_find _ (k_prefixes (pp_core s1))); [apply obind_ok in P as (? & _ & [= _ H0]); discriminate|].
           injection P as <-. eapply IH1; eauto.
      * destruct (core_publish_no_throw _ _ _ _ P).
      * injection E as <- _ <-. destruct Hres as [([] & [=])|(ex & [=])].
      * injection E as <- _ <-. destruct Hres as [([] & [=])|(ex & [=])].
Qed.
Print Assumptions C38_no_update_skipped.

(** the reply a publication sends mentions every matching name the consumer lacks *)
Theorem C38_reply_complete : forall K evs p q s' o' ks key e f seq nm s o,
  scheme_ok (pc_codec K) (pc_scheme K) ->
  Forall pev_wf (evs ++ [PPublishName p q]) ->
  collision_free (pc_n K) (history (evs ++ [PPublishName p q])) ->
  pp_run K (pp_new K) evs = Some (s, o) ->
  pp_run K (pp_new K) (evs ++ [PPublishName p q]) = Some (s', o') ->
  NoDup ks -> exact_throughout K evs ks ->
  nm_find key (pp_pending s) = Some e -> IbfOf (pc_n K) ks (pe_iblt e) ->
  seq_after p (history (evs ++ [PPublishName p q])) = Some seq ->
  fate_of K (k_iblt (pp_core s')) p seq e f ->
  forall names, f = Answered names ->
  In nm (live (pp_core s')) -> bloom_contains (pe_bf e) (name_prefix_back nm 1) = Ok true ->
  In (name_hash nm) ks \/ In nm names.
Proof.
  intros K evs p q s' o' ks key e f seq nm s o Sk W Hc R R' Nk X F Hi Hs Hf names -> Hl Hb.
  assert (Forall pev_wf evs) as W1 by (apply Forall_app in W; tauto).
  assert (collision_free (pc_n K) (history evs)) as Hc1
      by (rewrite history_app in Hc; apply collision_free_app in Hc; exact Hc).
  destruct (live_step K evs s o (PPublishName p q) s' _ nm W R R' Hl) as [Hl1|(p0 & q0 & [= <- <-] & Hp)].
  - left. eapply C38_no_update_skipped; eauto.
  - right. destruct Hf as (d & D & Hf). destruct (can_decode d); [|discriminate].
    destruct Hf as (x & Hx & Hf). rewrite Hp in Hb. rewrite Hb in Hx. injection Hx as <-.
    injection Hf as ->. left.
    destruct (reach_core _ _ _ _ W R') as [W2 C2].
    apply (C30_live_names _ _ _ nm W2 C2) in Hl as (p1 & v & Hv & _ & ->).
    unfold append_number in Hp. rewrite name_prefix_back_snoc in Hp. subst p1.
    rewrite Hs in Hv. injection Hv as <-. reflexivity.
Qed.
Print Assumptions C38_reply_complete.

(** a consumer with an empty IBF pending for everything while only other names get published is
    impossible; one pending for almost nothing may lag behind *)
Definition evs_38 : list pev := evs_pend ++ [PPublishName pa None].
Definition s_38 : pp := st (pp_step Kx (PPublishName pa None) s_pend).
Lemma run_38 : exists o, pp_run Kx (pp_new Kx) evs_38 = Some (s_38, o).
Proof. eexists. unfold evs_38. rewrite run_pend. vm_compute. reflexivity. Qed.
Lemma Ok_inj {A} (a b : A) : Ok a = Ok b -> a = b. Proof. intros [= ->]. reflexivity. Qed.
Lemma hist_38 : history evs_38 = [CAdd pa; CPublish pa None]. Proof. reflexivity. Qed.
Lemma core_38 : crun (core_new 10) [CAdd pa; CPublish pa None] = Ok (pp_core s_38).
Proof. vm_compute. reflexivity. Qed.
Lemma len_38 : (length (live (pp_core s_38)) <= 1)%nat.
Proof. apply Nat.leb_le. vm_compute. reflexivity. Qed.
Example C38_example :
  (exists o, pp_run Kx (pp_new Kx) evs_38 = Some (s_38, o)) /\ Forall pev_wf evs_38 /\
  collision_free (pc_n Kx) (history evs_38) /\ NoDup (@nil N) /\ exact_throughout Kx evs_38 [] /\
  (exists e, nm_find (request Kx one_bit (iblt_new 10)) (pp_pending s_38) = Some e /\ pe_iblt e = iblt_new 10) /\
  nm_find (request Kx all_ones (iblt_new 10)) (pp_pending s_38) = None /\
  live (pp_core s_38) = [append_number pa 1].
Proof.
  split; [apply run_38|]. split; [repeat constructor|].
  split; [intros pre post k E H; eapply check_free_ok; [|exact E|exact H]; vm_compute; reflexivity|].
  split; [constructor|]. split; [|split; [eexists; split; vm_compute; reflexivity|
    split; [vm_compute; reflexivity|vm_compute; reflexivity]]].
  intros pre post s o E R.
  assert (length (live (pp_core s)) <= 1)%nat as L.
  { destruct (reach_core Kx pre s o) as [_ C]; auto.
    - assert (Forall pev_wf evs_38) as W by (repeat constructor). rewrite E in W. apply Forall_app in W. tauto.
    - assert (exists a b, history evs_38 = a ++ b /\ crun (core_new 10) a = Ok (pp_core s)) as (a & b & Ea & Ha).
      { exists (history pre), (history post). rewrite E, history_app. auto. }
      rewrite hist_38 in Ea.
      destruct a as [|a1 a]; [injection Ha as <-; simpl; lia|].
      injection Ea as <- Ea. destruct a as [|a2 a]; [injection Ha as <-; vm_compute; lia|].
      injection Ea as <- Ea. destruct a; [|discriminate Ea].
      assert (crun (core_new 10) [CAdd pa; CPublish pa None] = Ok (pp_core s_38)) as H8
        by exact core_38.
      rewrite H8 in Ha. apply Ok_inj in Ha. rewrite <- Ha. exact len_38. }
  set (a := map name_hash (live (pp_core s))).
  assert (length (signed_diff a []) <= 1)%nat as L2.
  { unfold signed_diff. rewrite app_length, !map_length. change (only_in [] a) with (@nil N).
    unfold only_in. pose proof (filter_len (fun k => negb (nset_mem k [])) a) as H0.
    assert (length a <= 1)%nat by (subst a; rewrite map_length; exact L). cbn [length]. lia. }
  split.
  - intros l Nd Hin Hl. pose proof (NoDup_incl_length Nd Hin) as H0.
    pose proof (Nat.le_trans _ _ _ H0 L2). lia.
  - cbn [pc_fuel Kx]. eapply Nat.le_lt_trans; [exact L2|]. apply Nat.ltb_lt. reflexivity.
Qed.

(** * C39: refuted by a stored interest with version and segment *)
Theorem C39_pending_expire_partial : forall K evs s o key e,
  pp_run K (pp_new K) evs = Some (s, o) ->
  (forall n l bf t, In (PInterest n l) evs -> sync_request_for K n key bf t -> n = key) ->
  no_overdue s ->
  nm_find key (pp_pending s) = Some e ->
  exists pre l post s1 o1, evs = pre ++ PInterest key l :: post /\
    pp_run K (pp_new K) pre = Some (s1, o1) /\ pp_now s < pp_now s1 + l.
Proof.
  intros K evs s o key e R Hx Hq.
  assert (forall e, nm_find key (pp_pending s) = Some e ->
    exists dl pre l post s1 o1, pe_expiry e = Some (dl, key) /\ evs = pre ++ PInterest key l :: post /\
      pp_run K (pp_new K) pre = Some (s1, o1) /\ dl = pp_now s1 + l) as Inv.
  { clear Hq e. revert s o R Hx. induction evs as [|ev evs IH] using rev_ind; intros s o R Hx e F.
    - injection R as <- <-. discriminate F.
    - pose proof (run_snoc _ _ _ _ _ _ R) as (s1 & o1 & o2 & R1 & Es & _).
      destruct (pp_step K ev s1) as [[s0 o0] r0] eqn:E. cbn in Es. subst s0.
      destruct (pp_step_ok _ _ _ _ _ _ (pp_run_ok _ _ _ _ R1) E) as (_ & Ch & _ & _).
      assert (forall n l bf t, In (PInterest n l) evs -> sync_request_for K n key bf t -> n = key) as Hx1
        by (intros n l bf t Hin; apply (Hx n l); apply in_or_app; auto).
      specialize (IH s1 o1 R1 Hx1).
      destruct (Ch _ _ F) as [F1|[(n & l & -> & Hq & Ex & _)|(y & dl & n & -> & Fy & -> & Ey & Hn)]].
      + destruct (IH _ F1) as (dl & pre & l & post & s2 & o2' & A & -> & B & C).
        exists dl, pre, l, (post ++ [ev]), s2, o2'. rewrite <- app_assoc. auto.
      + assert (n = key) as -> by (apply (Hx n l (pe_bf e) (pe_iblt e)); auto; apply in_or_app; right; left; auto).
        exists (pp_now s1 + l), evs, l, [], s1, o1. auto.
      + destruct (IH _ Fy) as (dl' & _ & _ & _ & _ & _ & A & _). rewrite Ey in A. injection A as -> ->.
        contradiction. }
  intros F. destruct (Inv _ F) as (dl & pre & l & post & s1 & o1 & A & -> & B & C).
  exists pre, l, post, s1, o1. split; auto. split; auto. subst dl. eapply Hq; eauto.
Qed.
Print Assumptions C39_pending_expire_partial.

Definition six : name := request Kx all_ones (iblt_new 10) ++ [number_comp TYPE_VERSION 7; number_comp TYPE_SEGMENT 0].
Definition evs_39 : list pev :=
  [PAdd pa; PInterest six 1000; PTick 1000; PExpire (request Kx all_ones (iblt_new 10))].
Definition s_39 : pp :=
  expire q_all (st (pp_step Kx (PTick 1000) (pend six q_all bf_all (iblt_new 10) 1000 s_fresh))).
Lemma pend_six : pp_step Kx (PInterest six 1000) s_fresh = (pend six q_all bf_all (iblt_new 10) 1000 s_fresh, [], Ok tt).
Proof.
  apply pend_step; [reflexivity| |vm_compute; reflexivity|apply fresh_sub|reflexivity].
  apply request_tail; [reflexivity|reflexivity|apply bf_all_ok|apply iblt_new_length|apply iblt_new_wf|right; reflexivity].
Qed.
Lemma run_39 : pp_run Kx (pp_new Kx) evs_39 = Some (s_39, []).
Proof.
  apply (run_quiet Kx (PAdd pa) [PInterest six 1000; PTick 1000; PExpire q_all] _ _ _ _ step_fresh).
  apply (run_quiet Kx (PInterest six 1000) [PTick 1000; PExpire q_all] _ _ _ _ pend_six).
  reflexivity.
Qed.
(** once the timers have run without effect, nothing but an interest or a publication removes an entry *)
Lemma timers_keep K later : forall s s' o',
  (forall k y, nm_find k (pp_pending s) = Some y -> pe_expiry y = None) ->
  Forall is_timer later -> pp_run K s later = Some (s', o') -> pp_pending s' = pp_pending s.
Proof.
  induction later as [|e later IH]; intros s s' o' Ha Ht R.
  - injection R as <- _. reflexivity.
  - inversion Ht as [|? ? He Hl]; subst. unfold pp_run in R. cbn [run] in R.
    assert (exists s1, pp_step K e s = (s1, [], Ok tt) /\ pp_pending s1 = pp_pending s) as (s1 & E & Hp).
    { destruct e; try destruct He.
      - eexists. split; reflexivity.
      - exists (expire key s). split; [reflexivity|]. unfold expire.
        destruct (nm_find key (pp_pending s)) as [y|] eqn:Fy; auto. rewrite (Ha _ _ Fy). reflexivity.
      - eexists. split; reflexivity. }
    rewrite E in R. fold (pp_run K s1 later) in R. destruct (pp_run K s1 later) as [[s2 o2]|] eqn:R2; [|discriminate].
    injection R as <- _. rewrite <- Hp. eapply IH; eauto. rewrite Hp. exact Ha.
Qed.
Theorem C39_pending_expire_refuted : exists K evs s o key,
  pp_run K (pp_new K) evs = Some (s, o) /\ no_overdue s /\
  (exists n l, In (PInterest n l) evs /\ l <= pp_now s /\
     forall n' l', In (PInterest n' l') evs -> n' = n /\ l' = l) /\
  (exists e, nm_find key (pp_pending s) = Some e) /\
  (forall later s' o', Forall is_timer later -> pp_run K s later = Some (s', o') ->
     nm_find key (pp_pending s') = nm_find key (pp_pending s)).
Proof.
  exists Kx, evs_39, s_39. pose proof run_39 as R.
  exists [], (request Kx all_ones (iblt_new 10)).
  assert (pp_pending s_39 = [(request Kx all_ones (iblt_new 10), mkPentry bf_all (iblt_new 10) None)]) as Hp
    by (vm_compute; reflexivity).
  assert (forall k y, nm_find k (pp_pending s_39) = Some y -> pe_expiry y = None) as Ha.
  { rewrite Hp. intros k y F. apply nm_find_In in F as [[= <- <-]|[]]. reflexivity. }
  split; [exact R|]. split; [|split; [|split]].
  - intros k e dl n F Ee. rewrite (Ha _ _ F) in Ee. discriminate.
  - exists six, 1000. split; [right; left; reflexivity|]. split; [vm_compute; discriminate|].
    intros n' l' [H|[H|[H|[H|[]]]]]; try discriminate H. injection H as <- <-. auto.
  - eexists. rewrite Hp. cbn [nm_find]. rewrite name_eqb_refl. reflexivity.
  - intros later s' o' Ht Hr.
    rewrite (timers_keep Kx later s_39 s' o' Ha Ht Hr). reflexivity.
Qed.
Print Assumptions C39_pending_expire_refuted.

Example C39_example :
  (exists s o, pp_run Kx (pp_new Kx) (evs_pend ++ [PTick 999]) = Some (s, o) /\ length (pp_pending s) = 2%nat) /\
  exists s o, pp_run Kx (pp_new Kx) (evs_pend ++ [PTick 1000; PExpire q_all; PExpire q_bit]) = Some (s, o) /\
    length (pp_pending s) = 0%nat.
Proof.
  split; eexists; eexists; rewrite run_pend; (split; [vm_compute; reflexivity|reflexivity]).
Qed.

(** * C40 *)
Theorem C40_hello_lists_everything : forall K evs s o iname l c,
  scheme_ok (pc_codec K) (pc_scheme K) ->
  Forall pev_wf evs -> pp_run K (pp_new K) evs = Some (s, o) ->
  (iname = pc_sync K ++ [HELLO] \/ exists x y z, iname = pc_sync K ++ [HELLO; x; y; z]) ->
  reply_from_store iname (pp_pub s) = None ->
  carries_ibf (pc_codec K) (pc_scheme K) c (k_iblt (pp_core s)) ->
  exists nodes s' o',
    (forall p v, In (p, v) nodes <-> seq_after p (history evs) = Some v) /\
    StronglySorted (fun a b => name_cmp (fst a) (fst b) = Lt) nodes /\
    pp_step K (PInterest iname l) s = (s', o', Ok tt) /\
    published K s s' iname (pc_sync K ++ [HELLO; c])
      (map (fun x => append_number (fst x) (snd x)) nodes) (pc_hello_fresh K) o' /\
    pp_core s' = pp_core s /\ pp_pending s' = pp_pending s.
Proof.
  intros K evs s o iname l c Sk W R Hn Hr Hc.
  destruct (reach_core K evs s o W R) as [W' C].
  pose proof (crun_pfx _ _ _ (core_new_pfx (pc_n K)) W' C) as [So _].
  exists (k_prefixes (pp_core s)).
  assert (is_prefix (pc_sync K ++ [HELLO]) iname = true /\ is_hello_name iname = Ok true /\ iname <> []) as (H1 & H2 & H3).
  { split; [|split].
    - apply is_prefix_iff. destruct Hn as [-> |(x & y & z & ->)].
      + exists []. rewrite app_nil_r. reflexivity.
      + exists [x; y; z]. rewrite <- app_assoc. reflexivity.
    - unfold is_hello_name. destruct Hn as [-> |(x & y & z & ->)].
      + rewrite name_get_minus_last. cbn [obind].
        replace (comp_eqb HELLO HELLO) with true by reflexivity. reflexivity.
      + assert (pc_sync K ++ [HELLO; x; y; z] = (pc_sync K ++ [HELLO; x; y]) ++ [z]) as E
          by (rewrite <- app_assoc; reflexivity).
        rewrite E at 1. rewrite name_get_minus_last, name_get_minus_four. cbn [obind].
        destruct (comp_eqb z HELLO); reflexivity.
    - destruct Hn as [-> |(x & y & z & ->)]; destruct (pc_sync K); discriminate. }
  rewrite (step_hello K s iname l true H1 Hr H2).
  destruct (append_cases K (pc_sync K ++ [HELLO]) (k_iblt (pp_core s)) Sk) as (c' & -> & Hc').
  rewrite (carries_unique _ _ _ _ _ Hc' Hc), <- app_assoc.
  destruct (pp_publish_total K iname (pc_sync K ++ [HELLO] ++ [c]) (encode_names (hello_content (pp_core s)))
    (pc_hello_fresh K) s H3) as (p & o' & P & ->).
  exists (set_pub p s), o'. split; [|split; [|split; [reflexivity|split; [exact P|auto]]]].
  - intros q v. rewrite <- (C29_sequence_numbers _ _ _ q W' C). unfold get_seq. split.
    + apply nm_In_find; auto.
    + apply nm_find_In.
  - revert So. unfold nm_sorted. generalize (k_prefixes (pp_core s)). clear.
    induction n as [|[a v] m IH]; intros H; constructor; cbn [map fst] in H; inversion H as [|? ? H1 H2]; subst; auto.
    apply Forall_forall. intros x Hx. rewrite Forall_forall in H2. apply H2. apply in_map. exact Hx.
Qed.
Print Assumptions C40_hello_lists_everything.

Example C40_example :
  reply_from_store (pc_sync Kx ++ [HELLO]) (pp_pub s_ex) = None /\
  outs (pp_step Kx (PInterest (pc_sync Kx ++ [HELLO]) 1000) s_ex) =
    [mkData (pc_sync Kx ++ [HELLO; gen (table_bytes (k_iblt (pp_core s_ex)));
                            number_comp TYPE_VERSION 1000; number_comp TYPE_SEGMENT 0])
            Blob (encode_names [append_number pa 4; append_number pb 5])
            (Some (number_comp TYPE_SEGMENT 0)) 1000 [x00]].
Proof. split; vm_compute; reflexivity. Qed.

(** * C41 *)
Theorem C41_no_exception : forall K s iname l e,
  scheme_ok (pc_codec K) (pc_scheme K) -> res (pp_step K (PInterest iname l) s) <> Throw e.
Proof. intros K s iname l e Sk H. exact (step_interest_no_throw K s iname l Sk e H). Qed.
Print Assumptions C41_no_exception.

(** interests of every kind, including one whose IBF does not parse, are handled *)
Example C41_example :
  scheme_ok (pc_codec Kx) (pc_scheme Kx) /\
  res (pp_step Kx (PInterest (pc_sync Kx ++ [SYNC; gen []; gen [x01; x02; x03]; gen []; gen [x00]]) 1) s_ex) = Ok tt /\
  res (pp_step Kx (PInterest (pc_sync Kx ++ [HELLO; gen []]) 1) s_ex) = Ok tt.
Proof. split; [left; reflexivity|]. split; vm_compute; reflexivity. Qed.

(** * C68: refuted by forged IBFs *)
Theorem C68_interest_hangs_refuted : forall K evs s o c1 c2 c3 bf,
  pc_n K <> 0%nat -> pc_scheme K = SNone ->
  Forall pev_wf evs -> collision_free (pc_n K) (history evs) ->
  pp_run K (pp_new K) evs = Some (s, o) -> pb_store (pp_pub s) = [] ->
  bloom_of_comps (pc_libm K) c1 c2 c3 = Ok bf ->
  exists hang crash,
    (forall l, res (pp_step K (PInterest hang l) s) = Hang) /\
    (forall l, res (pp_step K (PInterest crash l) s) = UB UbIntOverflow).
Proof.
  intros K evs s o c1 c2 c3 bf Hn Hs W Hc R He Hb.
  destruct (reach_core K evs s o W R) as [W' C].
  pose proof (C30_ibf_is_current_names _ _ _ W' C Hc) as [Hi _].
  assert (keys32 (map name_hash (live (pp_core s)))) as K32.
  { apply Forall_forall. intros h Hh. apply in_map_iff in Hh as (nm & <- & _). apply name_hash_lt. }
  destruct (C13_termination_refuted _ _ _ Hn K32 Hi) as (c & t & I & Ht).
  destruct (C14_overflow_refuted _ _ _ Hn K32 Hi) as (c' & t' & I' & Ht').
  assert (forall c t, initialize codec_none SNone (iblt_new (pc_n K)) c = (t, Ok tt) ->
    let n := pc_sync K ++ [SYNC; c1; c2; c3; c] in
    sync_request_for K n n bf t /\ reply_from_store n (pp_pub s) = None) as Hq.
  { intros c0 t0 H0. cbv zeta. split.
    - exists c1, c2, c3, c0, []. rewrite app_nil_r, Hs. repeat split; auto.
    - unfold reply_from_store. rewrite He. reflexivity. }
  exists (pc_sync K ++ [SYNC; c1; c2; c3; c]), (pc_sync K ++ [SYNC; c1; c2; c3; c']).
  destruct (Hq c t I) as [Q1 Q2]. destruct (Hq c' t' I') as [Q3 Q4]. split; intros l.
  - rewrite (step_request _ _ _ _ _ _ _ Q1 Q2), mbind_lift, Ht. reflexivity.
  - rewrite (step_request _ _ _ _ _ _ _ Q3 Q4), mbind_lift, Ht'. reflexivity.
Qed.
Print Assumptions C68_interest_hangs_refuted.

(** requests whose filter is usable and whose IBF is honest are handled *)
Theorem C68_honest_interest_handled_partial : forall K evs s o iname rname bf t l ks,
  scheme_ok (pc_codec K) (pc_scheme K) ->
  Forall pev_wf evs -> collision_free (pc_n K) (history evs) ->
  pp_run K (pp_new K) evs = Some (s, o) ->
  sync_request_for K iname rname bf t -> bloom_sound bf ->
  NoDup ks -> IbfOf (pc_n K) ks t -> exact_difference K (pp_core s) ks ->
  res (pp_step K (PInterest iname l) s) = Ok tt.
Proof.
  intros K evs s o iname rname bf t l ks Sk W Hc R Hq B Nk Ht X.
  destruct (reply_from_store iname (pp_pub s)) as [x|] eqn:Hr.
  - apply sync_request_prefix in Hq as (H1 & H2 & _). cbn [pp_step]. unfold dispatch. rewrite H1, H2.
    unfold on_sync_interest. rewrite mbind_get, Hr. reflexivity.
  - destruct (exact_at K evs s o ks t W Hc R Nk Ht X) as (d & D & _).
    destruct (append_cases K rname (k_iblt (pp_core s)) Sk) as (c & _ & Hi).
    destruct (can_decode d) eqn:Cd.
    + destruct (names_of_difference K evs s o bf t d W Hc R D B) as (names & M & _).
      rewrite (step_decoded _ _ _ _ _ _ _ _ _ _ Sk Hq Hr D Cd M Hi).
      destruct (request_nonempty _ _ _ _ _ Hq) as [Hne _].
      destruct (_ || _); [|reflexivity].
      destruct (pp_publish_total K iname (rname ++ [c]) (encode_names names) (pc_sync_fresh K) s Hne)
        as (p & o' & P & ->). reflexivity.
    + rewrite (step_nack _ _ _ _ _ _ _ _ _ Sk Hq Hr D Cd Hi). reflexivity.
Qed.
Print Assumptions C68_honest_interest_handled_partial.

Example C68_example : pc_n Kx <> 0%nat /\ pc_scheme Kx = SNone /\ pb_store (pp_pub s_ex) = [] /\
  bloom_of_comps (pc_libm Kx) c_one c_one all_ones = Ok bf_all.
Proof.
  split; [discriminate|]. split; [reflexivity|]. split; [vm_compute; reflexivity|apply bf_all_ok].
Qed.
