(** Property theorems about which prefixes consumers report (C88). *)
From Coq Require Import List NArith ZArith Bool Arith Lia.
From Coq.Strings Require Import Byte.
From Verif Require Import Base BaseFacts Mon MonFacts Iblt SpecIblt HonestFacts Tlv TlvFacts State NMap NMapFacts Codec CodecFacts
  Properties_Iblt Bloom SpecBloom BloomFacts Properties_Bloom Store StoreFacts Producer SpecProducer ProducerFacts Properties_Producer
  Partial SpecPartial PartialFacts PartialSteps Properties_Partial Full SpecFull FullRuns Consumer SpecConsumer ConsumerFacts Properties_Consumer
  SpecExchange ExchangeFacts Properties_Exchange SpecGroup GroupFacts Properties_Group SpecPair PairProducer PairConsumer PairFacts Properties_Pair.
Import ListNotations.
Local Open Scope N_scope.

(** the ranges of onSyncData are for names in the content *)
Lemma take_sync_brings names : forall s s1 o1 l, take_sync names s = (s1, o1, Ok l) ->
  Forall (fun m => brings names (mi_prefix m) (mi_high m)) l.
Proof.
  induction names as [|c names IH]; intros s s1 o1 l; cbn [take_sync].
  - intros [= _ _ <-]. constructor.
  - rewrite mbind_lift. destruct (name_get_minus c 1) as [last|e|u|] eqn:Eg; try discriminate.
    rewrite mbind_lift. destruct (to_number last) as [v|e|u|] eqn:Ev; try discriminate.
    cbv zeta. rewrite mbind_get. apply name_split in Eg. set (p := name_prefix_back c 1) in *.
    assert (forall s2 s3 o3 l3, take_sync names s2 = (s3, o3, Ok l3) -> Forall (fun m => brings (c :: names) (mi_prefix m) (mi_high m)) l3) as G.
    { intros s2 s3 o3 l3 H. eapply Forall_impl; [|exact (IH _ _ _ _ H)]. intros m. apply brings_cons. }
    destruct (match nm_find p (c_prefixes s) with None => true | Some cur => cur <? v end); [|apply G].
    rewrite mbind_mod. set (s2 := cset_prefixes _ s). unfold mbind. destruct (take_sync names s2) as [[s3 o3] r3] eqn:T.
    destruct r3 as [l3|e|u|]; try discriminate. intros [= _ _ <-]. constructor; [|eapply G; eauto].
    exists last. split; [left; exact Eg|exact Ev].
Qed.

(** * C88 *)
(** whatever is reported is for a prefix that is subscribed, or that the application subscribes to in
    this very event, or is named in a sync reply *)
Theorem C88_reports_partial : forall K evs s o e l m,
  creaches K evs s o -> fine (res (c_step K e s)) -> In (CoUpdate l) (outs (c_step K e s)) -> In m l ->
  is_subscribed (mi_prefix m) s = true \/
  (exists v cb, In (CSub (mi_prefix m) v cb) (calls_of e)) \/
  exists i n buf sc1 sc2 names x, e = CeContent i buf sc1 sc2 /\ cfetch i (c_live s) = Some (KSync, n) /\
    state_of_buffer buf = Ok names /\ In (mi_prefix m ++ [x]) names /\ to_number x = Ok (mi_high m).
Proof.
  intros K evs s o e l m R F Hl Hm.
  assert (forall A s1 o1 s2, did A s1 o1 s2 -> In (CoUpdate l) o1 -> incl A (calls_of e) -> exists v cb, In (CSub (mi_prefix m) v cb) (calls_of e)) as G.
  { intros A s1 o1 s2 D H I. destruct (did_update _ _ _ _ _ D H) as (p & v & cb & X & _ & ->). destruct Hm as [<-|[]]. exists v, cb. apply I. exact X. }
  destruct e as [a|i d|i buf sc1 sc2|i b|dt|i].
  all: try (destruct (c_step_view K _ s F) as [o' s' r Di _|s' r buf' e' B _ S _|s0 s1 r names buf' e' B1 B2 S T _|s0 s1 r names buf' e' B1 B2 S T _
    |s0 s1 s' names buf' l' o' r B1 B2 S T Di _|s0 s1 s2 s' names buf' l' av o1 o2 r B1 B2 S T D1 D2 _]; try contradiction;
    right; left; eapply G; [exact Di|exact Hl|apply incl_refl]).
  cbn [c_step] in F, Hl. rewrite mbind_get in F, Hl. destruct (cfetch i (c_live s)) as [[[|] n]|] eqn:Fi; [| |destruct Hl].
  - (* hello *)
    unfold finish in F, Hl. rewrite mbind_mod in F, Hl. set (s0 := cset_live _ s) in *. unfold on_hello_data in F, Hl. rewrite mbind_mod, mbind_lift in F, Hl.
    set (s1 := cset_iblt _ s0) in *. destruct (state_of_buffer buf) as [names|x|x|] eqn:B; try (destruct Hl; fail).
    destruct (take_hello_inv names [] s1) as (T1 & _ & T3 & _). destruct (take_hello names [] s1) as [[s2 o2] r2] eqn:T.
    cbn [outs st res fst snd] in T1, T3. subst o2. rewrite (mbind_run _ _ _ _ _ _ T) in F, Hl. destruct r2 as [[l2 av]|x|x|]; try (destruct Hl; fail).
    destruct (T3 _ eq_refl) as [_ T4]. cbn [fst snd] in *. rewrite mbind_emit in F, Hl. pose proof (calls_did K sc1 s2) as C1.
    destruct (calls K sc1 s2) as [[s3 o3] r3] eqn:E3. rewrite (mbind_run _ _ _ _ _ _ E3) in F, Hl. cbn [outs st res fst snd] in C1.
    destruct r3 as [[]|x|x|].
    2-4: cbn [outs st res fst snd] in F, Hl; destruct (C1 F) as [X _]; discriminate X.
    destruct (C1 I) as [_ D1]. clear C1. destruct l2 as [|m2 l2].
    + cbn [mret outs st res fst snd app] in Hl. rewrite app_nil_r in Hl. destruct Hl as [Hl|Hl]; [discriminate|]. right. left. eapply G; [exact D1|exact Hl|apply incl_appl, incl_refl].
    + rewrite mbind_emit in F, Hl. pose proof (calls_did K sc2 s3) as C2. destruct (calls K sc2 s3) as [[s4 o4] r4]. cbn [outs st res fst snd] in C2, F, Hl.
      destruct (C2 F) as [_ D2]. destruct Hl as [Hl|Hl]; [discriminate|]. cbn [app] in Hl. apply in_app_or in Hl as [Hl|[Hl|Hl]].
      * right. left. eapply G; [exact D1|exact Hl|apply incl_appl, incl_refl].
      * injection Hl as <-. left. rewrite Forall_forall in T4. exact (T4 _ Hm).
      * right. left. eapply G; [exact D2|exact Hl|apply incl_appr, incl_refl].
  - (* sync *)
    unfold finish in F, Hl. rewrite mbind_mod in F, Hl. set (s0 := cset_live _ s) in *. destruct (is_nack (c_type s)); [destruct Hl|].
    unfold on_csync_data in F, Hl. rewrite mbind_mod, mbind_lift in F, Hl.
    set (s1 := cset_iblt _ s0) in *. destruct (state_of_buffer buf) as [names|x|x|] eqn:B; try (destruct Hl; fail).
    destruct (take_sync_inv names s1) as (T1 & _). destruct (take_sync names s1) as [[s2 o2] r2] eqn:T.
    cbn [outs fst snd] in T1. subst o2. rewrite (mbind_run _ _ _ _ _ _ T) in F, Hl. destruct r2 as [l2|x|x|]; try (destruct Hl; fail).
    pose proof (take_sync_brings _ _ _ _ _ T) as Br. cbn [app] in Hl.
    assert (forall s3, In (CoUpdate l) (outs (send_sync K s3)) -> False) as Ss.
    { intros s3. rewrite send_sync_eq. destruct (c_iblt s3); [intros []|]. destruct (append_bloom _ _); try (intros []; fail). intros [X|[]]. discriminate. }
    destruct l2 as [|m2 l2].
    + rewrite mbind_ret in Hl. destruct (send_sync K s2) as [[s3 o3] r3] eqn:E3. destruct (Ss s2). rewrite E3. exact Hl.
    + rewrite mbind_assoc, mbind_emit in F, Hl. pose proof (calls_did K sc2 s2) as C2. destruct (calls K sc2 s2) as [[s4 o4] r4] eqn:E4.
      rewrite (mbind_run _ _ _ _ _ _ E4) in F, Hl. cbn [outs st res fst snd] in C2.
      destruct r4 as [[]|x|x|].
      2-4: cbn [outs st res fst snd] in F, Hl; destruct (C2 F) as [X _]; discriminate X.
      destruct (C2 I) as [_ D2]. destruct (send_sync K s4) as [[s5 o5] r5] eqn:E5. cbn [outs st res fst snd] in Hl. destruct Hl as [Hl|Hl].
      * injection Hl as <-. rewrite Forall_forall in Br. destruct (Br _ Hm) as (x & X1 & X2). right. right. exists i, n, buf, sc1, sc2, names, x. auto 6.
      * cbn [app] in Hl. apply in_app_or in Hl as [Hl|Hl]; [right; left; eapply G; [exact D2|exact Hl|apply incl_appr, incl_refl]|].
        destruct (Ss s4). rewrite E5. exact Hl.
Qed.
Print Assumptions C88_reports_partial.
(** if replies name only subscribed prefixes, so do the reports *)
Theorem C88_reports_subscribed_partial : forall K evs s o e l m,
  creaches K evs s o -> only_subscribed K (evs ++ [e]) ->
  fine (res (c_step K e s)) -> In (CoUpdate l) (outs (c_step K e s)) -> In m l ->
  is_subscribed (mi_prefix m) s = true \/ exists v cb, In (CSub (mi_prefix m) v cb) (calls_of e).
Proof.
  intros K evs s o e l m R Os F Hl Hm. destruct (C88_reports_partial K evs s o e l m R F Hl Hm) as [H|[H|H]]; auto. left.
  destruct H as (i & n & buf & sc1 & sc2 & names & x & -> & Fi & B & Hx & _).
  eapply (Os evs i n buf sc1 sc2 [] s o names); eauto.
Qed.
Print Assumptions C88_reports_subscribed_partial.

(** ** Counterexamples *)
(** the filter of the subscriptions contains a name that was never subscribed; its first update
    answers the waiting interest and is reported *)
Definition px : name := [gen [x0b]].
Definition z4 : duo := Eval vm_compute in wp (PInterest hello_n 1000) (wc [CSendHello] (wp (PAdd pb) (wp (PAdd px) w0))).
Definition dz4 : data := Eval vm_compute in last_data z4.
Definition z5 : duo := Eval vm_compute in wf 0 dz4 subs_b [] z4.
Definition z6 : duo := Eval vm_compute in wi z5.
Definition z7 : duo := Eval vm_compute in wp (PPublishName px (Some 1)) z6.
Definition dz7 : data := Eval vm_compute in last_data z7.
Definition z8 : duo := Eval vm_compute in wf 1 dz7 [] [] z7.
Lemma hello_rule_z w : subscribes_in_hello w (AppHello (d_content dz4) subs_b []).
Proof.
  split; [|split; [|intros p v cb []]].
  - eapply told_all; run.
  - intros [|a [|b [|c l1]]] p v cb l2 E; try discriminate E.
    injection E as _ _ _ <-. left. left. reflexivity.
Qed.
Lemma run_z8 : duo_run Kx Kc subscribes_in_hello w0 z8.
Proof.
  apply (duo_next _ _ _ _ z7); [apply (duo_next _ _ _ _ z6); [apply (duo_next _ _ _ _ z5); [apply (duo_next _ _ _ _ z4)|]|]|].
  - apply (duo_next _ _ _ _ (wc [CSendHello] (wp (PAdd pb) (wp (PAdd px) w0)))).
    + apply (duo_next _ _ _ _ (wp (PAdd pb) (wp (PAdd px) w0))).
      * apply (duo_next _ _ _ _ (wp (PAdd px) w0)); [apply (duo_next _ _ _ _ w0); [constructor|]|]; apply do_prod; (exact I || apply step3; run).
      * apply do_calls; [apply hello_rules|apply step3; run].
    + replace z4 with (wp (PInterest hello_n 1000) (wc [CSendHello] (wp (PAdd pb) (wp (PAdd px) w0)))) by run.
      apply do_prod; [exact I|apply step3; run].
  - replace z5 with (wf 0 dz4 subs_b [] z4) by run.
    apply (do_fetch _ 0 KHello hello_n); [run|left; run|run|run|run|apply hello_rule_z|apply step3; run|apply step3; run].
  - replace z6 with (wi z5) by run. apply do_wait; run.
  - replace z7 with (wp (PPublishName px (Some 1)) z6) by run. apply do_prod; [reflexivity|apply step3; run].
  - replace z8 with (wf 1 dz7 [] [] z7) by run.
    apply (do_fetch _ 1 KSync (sync_n z5)); [run|right; left; run|run|run|run|apply hello_rules|apply step3; run|apply step3; run].
Qed.
Theorem C88_reports_refuted :
  (** a false positive, between an honest producer and an honest consumer *)
  (exists K Kc w0 w p, duo_ok K Kc /\ fresh_duo K Kc w0 /\ duo_run K Kc subscribes_in_hello w0 w /\
     is_subscribed p (du_cons w) = false /\ (forall v cb, ~ In (CSub p v cb) subs_b) /\ creported p (du_seen w) = [(1, 1)]) /\
  (** a prefix unsubscribed while the interest was under way *)
  (exists K evs s o i buf p, filter_ok K /\ rate_ok K /\ creaches K evs s o /\ is_subscribed p s = false /\
     creported p (outs (c_step K (CeContent i buf [] []) s)) = [(1, 9)]).
Proof.
  split.
  - exists Kx, Kc, w0, z8, px. split; [exact duo_v|]. split; [exact fresh_v|]. split; [exact run_z8|]. split; [run|].
    split; [intros v cb [H|[H|[]]]; discriminate|run].
  - exists Kc, evs_c5, s_c5, o_c5, 1%nat, (encode_names [append_number pa 9]), pa.
    split; [exact filter_c|]. split; [exact rate_c|]. split; [exact reach_c5|]. split; run.
Qed.
Print Assumptions C88_reports_refuted.

(** ** Example *)
Definition only_b (evs : list cev) (k : nat) : bool :=
  match nth_error evs k with
  | Some (CeContent i buf _ _) =>
    match c_run Kc s_c0 (firstn k evs) with
    | Some (s, _) => match cfetch i (c_live s), state_of_buffer buf with
      | Some (KSync, _), Ok names => forallb (fun nm => is_subscribed (name_prefix_back nm 1) s) names
      | _, _ => true end
    | None => true end
  | _ => true end.
Lemma only_check evs : forallb (only_b evs) (seq 0 (length evs)) = true -> only_subscribed Kc evs.
Proof.
  intros H a i n buf sc1 sc2 b s o names p x E R Fi B Hx. rewrite forallb_forall in H.
  assert (In (length a) (seq 0 (length evs))) as Hk by (apply in_seq; rewrite E, app_length; cbn [length]; lia).
  specialize (H _ Hk). unfold only_b in H. rewrite E, nth_error_app2, Nat.sub_diag in H by lia. cbn [nth_error] in H.
  rewrite firstn_app, firstn_all, Nat.sub_diag, app_nil_r in H. unfold creaches in R. rewrite start_c in R. rewrite R, Fi, B in H.
  rewrite forallb_forall in H. specialize (H _ Hx). rewrite name_prefix_back_snoc in H. exact H.
Qed.
(** the hello reply in [evs_c2] lists prefixes that were not subscribed at that time *)
Definition reply_9 : cev := CeContent 1 (encode_names [append_number pa 9]) [] [].
Example C88_example :
  creaches Kc evs_c2 s_c2 o_c2 /\ only_subscribed Kc (evs_c2 ++ [reply_9]) /\
  fine (res (c_step Kc reply_9 s_c2)) /\ In (CoUpdate [mkMissing pa 5 9 0]) (outs (c_step Kc reply_9 s_c2)).
Proof.
  split; [exact reach_c2|]. split; [apply only_check; run|]. split; [vm_compute; exact I|].
  assert (outs (c_step Kc reply_9 s_c2) = [CoUpdate [mkMissing pa 5 9 0]; CoInterest KSync (sync_prefix Kc ++ skipn 2 (match cfetch 1 (c_live s_c2) with Some (_, n) => n | None => [] end))]) as -> by run.
  left. reflexivity.
Qed.
(** the hypotheses of C47_add_when_replies_match_partial *)
Example C47_replies_example : filter_ok Kc /\ creaches Kc evs_c2 s_c2 o_c2 /\ only_subscribed Kc evs_c2 /\
  is_subscribed pa s_c2 = true /\ is_subscribed px s_c2 = false.
Proof. split; [exact filter_c|]. split; [exact reach_c2|]. split; [apply only_check; run|]. split; run. Qed.
