(** Property theorems about when news arrive at full-sync nodes (C103, C104). *)
From Coq Require Import List NArith ZArith Bool Arith Lia.
From Coq.Strings Require Import Byte.
From Verif Require Import Base Mon MonFacts Iblt BaseFacts IbltFacts SpecIblt HonestFacts IbltProps
  Tlv State NMap TlvFacts NMapFacts Codec CodecFacts Properties_Iblt Store StoreFacts
  Producer SpecProducer ProducerFacts Properties_Producer Partial SpecPartial PartialFacts PartialSteps Properties_Partial
  Full FullTrace SpecFull FullFacts FullSafe FullSteps FullData FullRuns FullReplies Properties_Full
  SpecExchange ExchangeFacts Properties_Exchange SpecFresh SpecDeliver DeliverFacts.
Import ListNotations.
Local Open Scope N_scope.

(** * C103 *)
(** Node [a] knew what [a0] knows at least the longest freshness period ago.  The interest by which a
    peer with the data [kb] asks is then answered, whether from the store or not, by content that
    tells all of it; it stays unanswered only if the peer knows all of it. *)
Theorem C103_old_news_are_told : forall Ka Kb sys evs evs' a0 a o0 o kb n l,
  same_group Ka Kb -> schemes_ok Ka -> lossless (fc_codec Ka) -> uri_ok Ka ->
  versions_differ (fc_env Ka) (pb_published (f_pub a)) ->
  reaches Ka sys evs a0 o0 -> reaches Ka sys (evs ++ evs') a (o0 ++ o) ->
  no_collision Ka (o0 ++ o) -> no_removal (ops_of o) ->
  node_data Kb kb -> asks Kb kb n ->
  (forall k, held_during (f_core a0) o k -> comparable Ka (evs ++ evs') k kb) ->
  erased_in_time (f_now a) (f_pub a) -> f_now a0 + longest Ka <= f_now a ->
  exists a' out, fp_step Ka (FeInterest n l) a = (a', out, Ok tt) /\
    match data_of out with
    | [] => forall p, knows a0 p <= known kb p
    | d :: _ => forall buf, fetched (f_pub a') d buf ->
        exists names, content_names Kb buf names /\ tells (f_core a0) kb names
    end.
Proof.
  intros Ka Kb sys evs evs' a0 a o0 o kb n l G Sk Lo Uk Vd R0 R1 Nc Nr Hb As Cm Er Old.
  destruct (answer_tells Ka Kb sys evs evs' a0 a o0 o kb n G Sk Lo Uk Vd R0 R1 Nc Nr Hb As Cm Er Old l) as (a' & out & S & _ & H).
  exists a', out. auto.
Qed.
Print Assumptions C103_old_news_are_told.
(** once the peer, which may have learned more meanwhile, has the content, it knows all of it *)
Theorem C103_old_news_arrive : forall Ka Kb sys evs evs' a0 a o0 o kb n l a' out d ds buf sysb evsb b ob i script b' ob',
  same_group Ka Kb -> schemes_ok Ka -> lossless (fc_codec Ka) -> uri_ok Ka ->
  versions_differ (fc_env Ka) (pb_published (f_pub a)) ->
  reaches Ka sys evs a0 o0 -> reaches Ka sys (evs ++ evs') a (o0 ++ o) ->
  no_collision Ka (o0 ++ o) -> no_removal (ops_of o) ->
  node_data Kb kb -> asks Kb kb n ->
  (forall k, held_during (f_core a0) o k -> comparable Ka (evs ++ evs') k kb) ->
  erased_in_time (f_now a) (f_pub a) -> f_now a0 + longest Ka <= f_now a ->
  fp_step Ka (FeInterest n l) a = (a', out, Ok tt) -> data_of out = d :: ds -> fetched (f_pub a') d buf ->
  reaches Kb sysb evsb b ob -> (forall p, known kb p <= knows b p) ->
  fetch_of i (f_live b) = Some n -> fev_wf (FeContent i buf script) ->
  (forall p, ~ In (CRemove p) (map api_op script)) ->
  fp_step Kb (FeContent i buf script) b = (b', ob', Ok tt) ->
  forall p, knows a0 p <= knows b' p.
Proof.
  intros Ka Kb sys evs evs' a0 a o0 o kb n l a' out d ds buf sysb evsb b ob i script b' ob'
    G Sk Lo Uk Vd R0 R1 Nc Nr Hb As Cm Er Old St Do Fe Rb Mo Hf Wf Hs Sb p.
  destruct (answer_tells Ka Kb sys evs evs' a0 a o0 o kb n G Sk Lo Uk Vd R0 R1 Nc Nr Hb As Cm Er Old l) as (x & y & S & _ & H).
  rewrite St in S. injection S as <- <-. rewrite Do in H. destruct (H buf Fe) as (names & Cn & Tl).
  unfold fev_wf in Wf. cbn [ev_ops] in Wf. rewrite Forall_map in Wf.
  destruct (content_covers Kb i buf script names b b' ob' n (reaches_pfx _ _ _ _ _ Rb) Wf Hs Hf Cn Sb) as [M Co].
  destruct (N.lt_ge_cases (known kb p) (known (f_core a0) p)) as [Lt|Ge].
  - destruct (Tl p Lt) as (v & Hv & Lv & Bv). etransitivity; [exact Lv|]. apply Co; auto.
  - etransitivity; [exact Ge|]. etransitivity; [apply Mo|exact (M p)].
Qed.
Print Assumptions C103_old_news_arrive.

(** ** Checking the assumptions in examples *)
Fixpoint cores (k : core) (ops : list cop) : list core :=
  k :: match ops with [] => [] | c :: r => match cstep k c with Ok k1 => cores k1 r | _ => [] end end.
Lemma cores_In ops2 : forall ops1 k0 k, crun k0 ops1 = Ok k -> In k (cores k0 (ops1 ++ ops2)).
Proof.
  induction ops1 as [|c ops1 IH]; intros k0 k H.
  - injection H as <-. destruct ops2; left; reflexivity.
  - cbn [crun] in H. apply obind_ok in H as (k1 & H1 & H). cbn [app cores]. rewrite H1. right. auto.
Qed.
Lemma held_cores k0 o k : held_during k0 o k -> In k (cores k0 (ops_of o)).
Proof. intros (o1 & o2 & -> & H). rewrite ops_of_app. apply cores_In. exact H. Qed.
Definition named_in (evs : list fev) : list name :=
  flat_map (fun c => match c with CPublish p (Some v) => [append_number p v] | _ => [] end) (flat_map ev_ops evs).
Definition all_numbered (evs : list fev) : bool :=
  forallb (fun c => match c with CPublish p None => false | _ => true end) (flat_map ev_ops evs).
Lemma published_named evs u : all_numbered evs = true -> published_name evs u -> In u (named_in evs).
Proof.
  unfold all_numbered. rewrite forallb_forall. intros H (p & q & cur & -> & Hp). specialize (H _ Hp).
  destruct q as [v|]; [|discriminate]. unfold named_in. apply in_flat_map. eexists. split; [exact Hp|]. left. reflexivity.
Qed.
Fixpoint nodup_b (l : list N) : bool := match l with [] => true | x :: r => negb (existsb (N.eqb x) r) && nodup_b r end.
Lemma nodup_b_ok l : nodup_b l = true -> NoDup l.
Proof.
  induction l as [|x r IH]; intros H; [constructor|]. apply andb_prop in H as [A B]. constructor; auto.
  intros X. apply negb_true_iff in A. assert (existsb (N.eqb x) r = true); [|congruence].
  apply existsb_exists. exists x. split; auto. apply N.eqb_refl.
Qed.
Definition few (l : list name) : bool :=
  (Nat.leb (length l) 8) && forallb (fun n => Nat.leb (length (name_wire n)) 100) l && wf_check l.
Definition comparable_b (K : fcfg) (evs : list fev) (k kb : core) : bool :=
  let ha := map name_hash (live k) in let hb := map name_hash (live kb) in
  inj_check (names_next k ++ names_next kb) &&
  nodup_b ha && nodup_b hb && no_coincidence_b (signed_diff ha hb) && Nat.ltb (length (signed_diff ha hb)) (fc_fuel K) &&
  match iblt_sub (fc_fuel K) (k_iblt k) (k_iblt kb) with Ok d => can_decode d | _ => false end &&
  few (live k) && forallb (fun u => few (u :: live k)) (named_in evs).
Lemma few_ok L names l : few names = true -> NoDup l -> incl l names -> fc_codec L = codec_none -> fc_cscheme L = SNone ->
  wf_names l /\ forall b, compress (fc_codec L) (fc_cscheme L) (encode_names l) = Ok b -> N.of_nat (length b) < two64.
Proof.
  unfold few. intros H Nl Il Ec Es. apply andb_prop in H as [H Hf]. apply andb_prop in H as [Hl Hw].
  apply Nat.leb_le in Hl. apply wf_check_ok in Hf.
  assert (length l <= 8)%nat as L1 by (etransitivity; [apply NoDup_incl_length; eauto|auto]).
  assert (length (flat_map name_wire l) <= 800)%nat as L2.
  { etransitivity; [apply (sum_flat name_wire 100)|lia]. intros x Hx. rewrite forallb_forall in Hw.
    apply Nat.leb_le. apply Hw. auto. }
  assert (N.of_nat (length (flat_map name_wire l)) < 1000) as L3 by lia.
  split.
  - split; [rewrite Forall_forall in *; auto|]. eapply N.lt_trans; [exact L3|reflexivity].
  - intros b E. rewrite Ec, Es in E. change (Ok (encode_names l) = Ok b) in E. injection E as <-. unfold encode_names, tlv.
    rewrite !app_length.
    assert (forall n, (length (write_var n) <= 9)%nat) as Lv.
    { intros n. unfold write_var. destruct (_ <? _); [simpl; lia|]. destruct (_ <=? _); [cbn [length]; rewrite be_enc_length; lia|].
      destruct (_ <=? _); cbn [length]; rewrite be_enc_length; lia. }
    pose proof (Lv TYPE_PSYNC_CONTENT). pose proof (Lv (N.of_nat (length (flat_map name_wire l)))).
    eapply N.lt_trans with (m := 2000); [lia|reflexivity].
Qed.
Lemma comparable_check K evs k kb : fc_codec K = codec_none -> fc_cscheme K = SNone -> all_numbered evs = true ->
  comparable_b K evs k kb = true -> comparable K evs k kb.
Proof.
  unfold comparable_b. intros Ec Es Hn H. repeat (apply andb_prop in H as [H ?]).
  split.
  - apply distinct_check. assumption.
  - split; [|apply Nat.ltb_lt; assumption]. apply no_coincidence_b_ok; auto.
    eapply NoDup_map_inv. apply signed_diff_keys; apply nodup_b_ok; assumption.
  - destruct (iblt_sub _ _ _) as [d| | |]; try discriminate. eauto.
  - intros l Nl [I|(u & Hu & I)]; [eapply few_ok; eauto|]. apply (few_ok K (u :: live k)); auto.
    rewrite forallb_forall in *. match goal with X : forall x, In x (named_in _) -> _ |- _ => apply X end. apply published_named; auto.
Qed.
Lemma comparable_all K evs (ks kbs : list core) : fc_codec K = codec_none -> fc_cscheme K = SNone -> all_numbered evs = true ->
  forallb (fun k => forallb (comparable_b K evs k) kbs) ks = true ->
  forall k kb, In k ks -> In kb kbs -> comparable K evs k kb.
Proof.
  intros Ec Es Hn H k kb Hk Hb. apply comparable_check; auto. rewrite forallb_forall in H. specialize (H k Hk).
  rewrite forallb_forall in H. auto.
Qed.
Lemma versions_example m : (m <= 100)%nat -> versions_differ env_example m.
Proof. intros Hm i j Hi Hj. unfold env_example. cbn [en_version]. split; [eapply N.lt_trans with (m := 2000); [lia|reflexivity]|lia]. Qed.
Lemma fresh_data K : node_data K (core_new (fc_n K)).
Proof.
  exists []. split; [constructor|]. split; [|reflexivity]. intros pre post k E. destruct pre; [|discriminate].
  intros [= <-]. constructor.
Qed.
Ltac run := vm_compute; reflexivity.

(** a peer without data asks, and is told about pa; then pb is published; when the peer asks again
    after the freshness period it is told about both, and a third time from the store *)
Definition n_103 : name := Eval vm_compute in ask_with Kf (iblt_new 10) 0.
Definition evs_103 : list fev :=
  [FeApi (AAdd pa); FeApi (APublish pa (Some 4)); FeInterest n_103 1000; FeTick 500;
   FeApi (AAdd pb); FeApi (APublish pb (Some 5))].
Definition evs2_103 : list fev := [FeTick 500; FeStore 0; FeInterest n_103 1000; FeTick 500].
Definition a0_103 : fp := Eval vm_compute in fst (full_after Kf evs_103).
Definition o0_103 : list fout := Eval vm_compute in snd (full_after Kf evs_103).
Definition a_103 : fp := Eval vm_compute in fst (full_after Kf (evs_103 ++ evs2_103)).
Definition o_103 : list fout := Eval vm_compute in skipn (length o0_103) (snd (full_after Kf (evs_103 ++ evs2_103))).
Lemma reach0_103 : reaches Kf 0 evs_103 a0_103 o0_103.
Proof. split; [repeat constructor; try (apply wf_nil; reflexivity)|run]. Qed.
Lemma reach_103 : reaches Kf 0 (evs_103 ++ evs2_103) a_103 (o0_103 ++ o_103).
Proof. split; [repeat constructor; try (apply wf_nil; reflexivity)|run]. Qed.
Example C103_example : exists d,
  same_group Kf Kf /\ schemes_ok Kf /\ lossless (fc_codec Kf) /\ uri_ok Kf /\
  versions_differ (fc_env Kf) (pb_published (f_pub a_103)) /\
  reaches Kf 0 evs_103 a0_103 o0_103 /\ reaches Kf 0 (evs_103 ++ evs2_103) a_103 (o0_103 ++ o_103) /\
  no_collision Kf (o0_103 ++ o_103) /\ no_removal (ops_of o_103) /\
  node_data Kf (core_new 10) /\ asks Kf (core_new 10) n_103 /\
  (forall k, held_during (f_core a0_103) o_103 k -> comparable Kf (evs_103 ++ evs2_103) k (core_new 10)) /\
  erased_in_time (f_now a_103) (f_pub a_103) /\ f_now a0_103 + longest Kf <= f_now a_103 /\
  reply_from_store n_103 (f_pub a_103) = Some d /\ fetched (f_pub a_103) d (d_content d) /\
  content_names Kf (d_content d) [append_number pa 4; append_number pb 5] /\ knows a0_103 pb = 5.
Proof.
  eexists. split; [repeat split|]. split; [apply Kf_ok|]. split; [apply lossless_none|]. split; [apply Kf_ok|].
  split; [apply versions_example; apply Nat.leb_le; run|]. split; [apply reach0_103|]. split; [apply reach_103|].
  split; [intros pre post k E H; eapply check_free_ok; [|exact E|exact H]; run|]. split; [apply keeps_all_ok; run|].
  split; [apply (fresh_data Kf)|]. split; [apply asks_check; run|].
  split. { intros k Hk. apply held_cores in Hk. eapply (comparable_all Kf _ _ [core_new 10]); [..|exact Hk|left; reflexivity]; run. }
  split. { intros dl m H. vm_compute in H. repeat (destruct H as [H|H]; [injection H as <- _; vm_compute; reflexivity|]). destruct H. }
  split; [vm_compute; discriminate|]. split; [run|].
  split; [eapply (fetched_one _ _ (n_103 ++ [number_comp TYPE_VERSION 1001]) (mkComp TYPE_SEGMENT [x00])); run|]. split; run.
Qed.
(** younger news may be missing in an answer: up to the freshness period the node keeps giving the
    answer it has stored *)
Definition young_103 : list fev := [FeTick 499].
Definition ay_103 : fp := Eval vm_compute in fst (full_after Kf (evs_103 ++ young_103)).
Lemma reach_y103 : reaches Kf 0 (evs_103 ++ young_103) ay_103 (o0_103 ++ []).
Proof. split; [repeat constructor; try (apply wf_nil; reflexivity)|run]. Qed.
Theorem C103_young_news_missing : exists K sys evs evs' a0 a o0 o kb n d buf names p,
  same_group K K /\ schemes_ok K /\ lossless (fc_codec K) /\ uri_ok K /\
  versions_differ (fc_env K) (pb_published (f_pub a)) /\
  reaches K sys evs a0 o0 /\ reaches K sys (evs ++ evs') a (o0 ++ o) /\
  no_collision K (o0 ++ o) /\ no_removal (ops_of o) /\ node_data K kb /\ asks K kb n /\
  (forall k, held_during (f_core a0) o k -> comparable K (evs ++ evs') k kb) /\
  erased_in_time (f_now a) (f_pub a) /\ f_now a0 + 499 <= f_now a /\ fc_fresh K = 1000 /\
  (forall l, fp_step K (FeInterest n l) a = (a, [FoData d], Ok tt)) /\ fetched (f_pub a) d buf /\
  content_names K buf names /\ known kb p < knows a0 p /\ forall v, ~ In (append_number p v) names.
Proof.
  eexists Kf, 0%Z, evs_103, young_103, a0_103, ay_103, o0_103, [], (core_new 10), n_103, _, _, [append_number pa 4], pb.
  split; [repeat split|]. split; [apply Kf_ok|]. split; [apply lossless_none|]. split; [apply Kf_ok|].
  split; [apply versions_example; apply Nat.leb_le; run|]. split; [apply reach0_103|]. split; [apply reach_y103|].
  split; [intros pre post k E H; eapply check_free_ok; [|exact E|exact H]; run|]. split; [apply keeps_all_ok; run|].
  split; [apply (fresh_data Kf)|]. split; [apply asks_check; run|].
  split. { intros k Hk. apply held_cores in Hk. eapply (comparable_all Kf _ _ [core_new 10]); [..|exact Hk|left; reflexivity]; run. }
  split. { intros dl m H. vm_compute in H. repeat (destruct H as [H|H]; [injection H as <- _; vm_compute; reflexivity|]). destruct H. }
  split; [vm_compute; discriminate|]. split; [reflexivity|]. split; [intros l; vm_compute; reflexivity|].
  split; [eapply (fetched_one _ _ (n_103 ++ [number_comp TYPE_VERSION 1000]) (mkComp TYPE_SEGMENT [x00])); run|].
  split; [run|]. split; [run|]. intros v [H|[]]. unfold append_number, pa, pb in H. discriminate.
Qed.
Print Assumptions C103_young_news_missing.

(** * C104 *)
(** two nodes on an ideal link: what one of them knew, the other knows after the longest freshness
    period of the former and the longest time in which the latter does not ask *)
Theorem C104_news_arrive_in_time : forall Ka Kb sysa sysb evsa evsb ea eb a0 b0 a b oa0 ob0 oa ob,
  same_group Ka Kb -> schemes_ok Ka -> schemes_ok Kb -> lossless (fc_codec Ka) -> uri_ok Ka ->
  reaches Ka sysa evsa a0 oa0 -> reaches Kb sysb evsb b0 ob0 ->
  joint Ka Kb a0 b0 ea oa eb ob a b -> Forall fev_wf ea -> Forall fev_wf eb ->
  (0 <= sysb)%Z -> steady sysb (evsb ++ eb) -> prompt Kb b0 eb ->
  no_collision Ka (oa0 ++ oa) -> no_collision Kb (ob0 ++ ob) ->
  no_removal (flat_map ev_ops ea) -> no_removal (flat_map ev_ops eb) ->
  versions_differ (fc_env Ka) (pb_published (f_pub a)) ->
  (forall k kb, held_during (f_core a0) oa k -> held_during (f_core b0) ob kb -> comparable Ka (evsa ++ ea) k kb) ->
  N.max (fc_fresh Ka) 10 + (fc_life Kb / 2 + fc_fresh Kb + 2 * 500) < time_of eb ->
  forall p, knows a0 p <= knows b p.
Proof. exact news. Qed.
Print Assumptions C104_news_arrive_in_time.

(** a published before; b learns of it 600 ms later, and asks for 3100 ms more *)
Definition evsa_104 : list fev := [FeApi (AAdd pa); FeApi (APublish pa (Some 4))].
Definition a0_104 : fp := Eval vm_compute in fst (full_after Kf evsa_104).
Definition oa0_104 : list fout := Eval vm_compute in snd (full_after Kf evsa_104).
Definition b0_104 : fp := Eval vm_compute in fst (full_after Kf []).
Definition ob0_104 : list fout := Eval vm_compute in snd (full_after Kf []).
Definition buf_104 : bytes := Eval vm_compute in encode_names [append_number pa 4].
Definition n_104 : name := Eval vm_compute in ask_with Kf (k_iblt (f_core a0_104)) 4.
Definition ea_104 : list fev :=
  [FeTick 600; FeInterest n_103 1000; FeTick 100; FeInterest n_104 1000; FeTick 600; FeInterest n_104 1000; FeTick 600; FeStore 0; FeInterest n_104 1000;
   FeTick 600; FeInterest n_104 1000; FeTick 600; FeInterest n_104 1000; FeTick 600; FeInterest n_104 1000].
Definition eb_104 : list fev :=
  [FeTick 600; FeSend; FeContent 1 buf_104 []; FeTick 100; FeSend; FeTick 600; FeSend; FeTick 600; FeSend; FeTick 600; FeSend; FeTick 600; FeSend;
   FeTick 600; FeSend].
Definition run_of (K : fcfg) (s : fp) (evs : list fev) : fp * list fout := match fp_run K s evs with Some x => x | None => (s, []) end.
Definition a_104 : fp := Eval vm_compute in fst (run_of Kf a0_104 ea_104).
Definition oa_104 : list fout := Eval vm_compute in snd (run_of Kf a0_104 ea_104).
Definition b_104 : fp := Eval vm_compute in fst (run_of Kf b0_104 eb_104).
Definition ob_104 : list fout := Eval vm_compute in snd (run_of Kf b0_104 eb_104).
Lemma joint_104 : joint Kf Kf a0_104 b0_104 ea_104 oa_104 eb_104 ob_104 a_104 b_104.
Proof.
  assert (exists oa ob a b, joint Kf Kf a0_104 b0_104 ea_104 oa eb_104 ob a b) as (oa & ob & a & b & J).
  { unfold ea_104, eb_104. eexists _, _, _, _.
    Ltac jtick := eapply j_tick; [run|run|].
    Ltac early := intros dl m H; vm_compute in H; repeat (destruct H as [H|H]; [injection H as <- _; vm_compute; reflexivity|]); destruct H.
    Ltac jsend xs := eapply (j_send Kf Kf _ _ _ xs) with (y := []); [discriminate|cbn [app]; run|intros ? ? []|early|run| |].
    jtick. jsend (@nil fout).
    { cbn [data_of]. eexists 1%nat, buf_104, [], _. split; [run|]. split; [|reflexivity].
      match goal with |- fetched ?p ?d _ => change (fetched p d (d_content d)) end.
      eapply (fetched_one _ _ (n_103 ++ [number_comp TYPE_VERSION 1000]) (mkComp TYPE_SEGMENT [x00])); run. }
    eapply j_b; [discriminate|run|intros ? ? [H|[H|[H|[]]]]; discriminate|].
    jtick. jsend (@nil fout). { exact I. }
    jtick. jsend (@nil fout). { exact I. }
    jtick. eapply j_a; [discriminate|run|]. jsend (@nil fout). { exact I. }
    jtick. jsend (@nil fout). { exact I. }
    jtick. jsend (@nil fout). { exact I. }
    jtick. jsend (@nil fout). { exact I. }
    constructor. }
  destruct (joint_run _ _ _ _ _ _ _ _ _ _ J) as [Ra Rb].
  assert (fp_run Kf a0_104 ea_104 = Some (a_104, oa_104)) as Ea by run.
  assert (fp_run Kf b0_104 eb_104 = Some (b_104, ob_104)) as Eb by run.
  rewrite Ea in Ra. rewrite Eb in Rb. injection Ra as <- <-. injection Rb as <- <-. exact J.
Qed.
Lemma prompt_step K s e r s' : st (fp_step K e s) = s' ->
  (forall dt dl k, e = FeTick dt -> f_sched s = Some (dl, k) -> f_now s + dt <= dl) -> prompt K s' r -> prompt K s (e :: r).
Proof. intros <- H P. split; assumption. Qed.
Lemma prompt_104 : prompt Kf b0_104 eb_104.
Proof.
  unfold eb_104.
  repeat (eapply prompt_step; [run|intros dt dl k X Y; try discriminate X; injection X as <-; vm_compute in Y; injection Y as <- <-; vm_compute; discriminate|]). exact I.
Qed.
Example C104_example :
  same_group Kf Kf /\ schemes_ok Kf /\ lossless (fc_codec Kf) /\ uri_ok Kf /\
  reaches Kf 0 evsa_104 a0_104 oa0_104 /\ reaches Kf 0 [] b0_104 ob0_104 /\
  joint Kf Kf a0_104 b0_104 ea_104 oa_104 eb_104 ob_104 a_104 b_104 /\ Forall fev_wf ea_104 /\ Forall fev_wf eb_104 /\
  steady 0 ([] ++ eb_104) /\ prompt Kf b0_104 eb_104 /\
  no_collision Kf (oa0_104 ++ oa_104) /\ no_collision Kf (ob0_104 ++ ob_104) /\
  no_removal (flat_map ev_ops ea_104) /\ no_removal (flat_map ev_ops eb_104) /\
  versions_differ (fc_env Kf) (pb_published (f_pub a_104)) /\
  (forall k kb, held_during (f_core a0_104) oa_104 k -> held_during (f_core b0_104) ob_104 kb ->
     comparable Kf (evsa_104 ++ ea_104) k kb) /\
  N.max (fc_fresh Kf) 10 + (fc_life Kf / 2 + fc_fresh Kf + 2 * 500) < time_of eb_104 /\
  knows b0_104 pa = 0 /\ knows a0_104 pa = 4 /\ knows b_104 pa = 4.
Proof.
  split; [repeat split|]. split; [apply Kf_ok|]. split; [apply lossless_none|]. split; [apply Kf_ok|].
  split; [split; [repeat constructor; try (apply wf_nil; reflexivity)|run]|]. split; [split; [constructor|run]|].
  split; [apply joint_104|]. split; [repeat constructor; apply wf_nil; reflexivity|]. split; [repeat constructor; apply wf_nil; reflexivity|].
  split; [cbn; auto|]. split; [apply prompt_104|].
  split; [intros pre post k E H; eapply check_free_ok; [|exact E|exact H]; run|].
  split; [intros pre post k E H; eapply check_free_ok; [|exact E|exact H]; run|].
  split; [apply keeps_all_ok; run|]. split; [apply keeps_all_ok; run|].
  split; [apply versions_example; apply Nat.leb_le; run|].
  split. { intros k kb Hk Hb. apply held_cores in Hk, Hb. eapply (comparable_all Kf _ _ _); [..|exact Hk|exact Hb]; run. }
  split; [run|]. split; [run|]. split; run.
Qed.
