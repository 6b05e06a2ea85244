(** C42, C43: exactly which interests and contents end in an exception or an access out of bounds. *)
From Coq Require Import List NArith ZArith Bool Arith Lia.
From Coq.Strings Require Import Byte.
From Verif Require Import Base BaseFacts Mon MonFacts Iblt SpecIblt IbltFacts Tlv TlvFacts State StateFacts NMap NMapFacts Codec
  Bloom SpecBloom BloomFacts Properties_Bloom Store Producer SpecProducer ProducerFacts Properties_Producer Partial PartialFacts PartialSteps
  Properties_Partial Full FullTrace SpecFull FullFacts FullSafe FullData FullRuns Properties_Full Consumer SpecConsumer ConsumerFacts Properties_Consumer.
Import ListNotations.
Local Open Scope N_scope.

(** * C42 *)
(** an exception leaves the handler exactly if the store has no answer, and two components follow the
    sync prefix of which the second is not a number *)
Theorem C42_throws_exactly_when : forall K sys evs s o n l,
  schemes_ok K -> uri_ok K -> reaches K sys evs s o ->
  ((exists x, res (fp_step K (FeInterest n l) s) = Throw x) <->
   reply_from_store n (f_pub s) = None /\ exists c c1 x, n = fc_sync K ++ [c; c1] /\ to_number c1 = Throw x) /\
  res (fp_step K (FeInterest n l) s) <> UB UbOutOfBounds.
Proof.
  intros K sys evs s o n l Sk Uk R. 
  assert (reply_from_store n (f_pub s) = None -> forall c c1 x, n = fc_sync K ++ [c; c1] -> to_number c1 = Throw x ->
    res (fp_step K (FeInterest n l) s) = Throw x) as Back.
  { intros St c c1 x E T. subst n. cbn [fp_step]. replace (is_prefix (fc_sync K) (fc_sync K ++ [c; c1])) with true by (symmetry; apply is_prefix_iff; eauto).
    unfold on_finterest. rewrite mbind_get, St, skipn_app_len. cbn [length Nat.eqb negb]. rewrite mbind_lift.
    rewrite (name_get_back_app (fc_sync K) [c; c1] 2), (name_get_back_app (fc_sync K) [c; c1] 1) by (simpl; lia).
    unfold name_get_back, name_get. cbn [length Nat.leb Nat.sub nth_error]. rewrite mbind_lift, mbind_lift, T. reflexivity. }
  assert (reply_from_store n (f_pub s) <> None -> tame (res (fp_step K (FeInterest n l) s))) as Store.
  { intros Hs. cbn [fp_step]. destruct (is_prefix _ _); [|exact I]. unfold on_finterest. rewrite mbind_get. destruct (reply_from_store n (f_pub s)); [exact I|congruence]. }
  assert (tame (res (fp_step K (FeInterest n l) s)) \/ reply_from_store n (f_pub s) = None /\ exists c c1 x, n = fc_sync K ++ [c; c1] /\ to_number c1 = Throw x) as D.
  { destruct (reply_from_store n (f_pub s)) eqn:St; [left; apply Store; discriminate|].
    destruct (is_prefix (fc_sync K) n && Nat.eqb (length (skipn (length (fc_sync K)) n)) 2) eqn:E.
    - apply andb_prop in E as [P L]. apply Nat.eqb_eq in L. destruct (split_two _ _ P L) as (c & c1 & En). 
      destruct (to_number c1) as [v|x|u|] eqn:T; [left|right; split; [reflexivity|]; eauto 6|unfold to_number in T; destruct (is_number c1); discriminate..].
      apply (C42_survives_numbered_interests_partial K sys evs s o n l Sk Uk R). intros c' c1' En'. rewrite En in En'. apply app_inv_head in En'. injection En' as <- <-. eauto.
    - left. apply (C42_survives_numbered_interests_partial K sys evs s o n l Sk Uk R). intros c c1 En. exfalso. subst n.
      rewrite skipn_app_len in E. cbn [length Nat.eqb] in E. rewrite andb_true_r in E.
      assert (is_prefix (fc_sync K) (fc_sync K ++ [c; c1]) = true) by (apply is_prefix_iff; eauto). congruence. }
  split; [split|].
  - intros [x E]. destruct D as [D|D]; [rewrite E in D; contradiction|exact D].
  - intros (St & c & c1 & x & En & T). exists x. eapply Back; eauto.
  - intros E. destruct D as [D|(St & c & c1 & x & En & T)]; [rewrite E in D; contradiction|]. rewrite (Back St _ _ _ En T) in E. discriminate.
Qed.
Print Assumptions C42_throws_exactly_when.
(** both happen: [blank_ask] is handled, a name is not a number *)
Example C42_exact_example : exists s o, reaches Kf 0 [] s o /\
  reply_from_store (syncp ++ [gen [x61]; gen [x61; x62; x63]]) (f_pub s) = None /\
  to_number (gen [x61; x62; x63]) = Throw ExNotNumber.
Proof. eexists _, _. split; [apply reaches_example; [constructor|vm_compute; reflexivity]|]. split; vm_compute; reflexivity. Qed.

(** * C43 *)
(** [c] is the first of [names] that does not end in a number *)
Definition first_bad (names : list name) (c : name) : Prop :=
  exists pre post, names = pre ++ c :: post /\ Forall good_name pre /\ ~ good_name c.
Lemma good_dec c : good_name c \/ c = [] \/ (exists last x, name_get_minus c 1 = Ok last /\ to_number last = Throw x) /\ ~ good_name c /\ c <> [].
Proof.
  destruct c as [|y c] using rev_ind; [right; left; reflexivity|]. clear IHc.
  destruct (to_number y) as [v|x|u|] eqn:E; [left; exists c, y; eauto| |unfold to_number in E; destruct (is_number y); discriminate..].
  right; right. split; [exists y, x; split; [apply name_get_minus_last|exact E]|]. split; [|destruct c; discriminate].
  intros (p & v & En & z & Ez). apply app_inj_tail in En as [_ <-]. congruence.
Qed.
Lemma empty_bad : ~ good_name []. Proof. intros (p & v & E & _). destruct p; discriminate. Qed.
Lemma names_cases names : Forall good_name names \/ exists c, first_bad names c.
Proof.
  induction names as [|c names IH]; [left; constructor|].
  destruct (good_dec c) as [G|B].
  - destruct IH as [H|(d & pre & post & -> & H1 & H2)]; [left; constructor; auto|right; exists d, (c :: pre), post; split; [reflexivity|]; split; auto].
  - right. exists c, [], names. split; [reflexivity|]. split; [constructor|]. destruct B as [->|(_ & B & _)]; [apply empty_bad|exact B].
Qed.
(** what the loop over the names ends with, when the first bad name is [c] *)
Definition bad_end {A} (c : name) (r : outcome A) : Prop :=
  match c with [] => r = UB UbOutOfBounds | _ => exists x, r = Throw x end.
Lemma bad_end_bind {T O A B} c (m : T -> T * list O * outcome A) (f : A -> T -> T * list O * outcome B) s : bad_end c (snd (m s)) -> bad_end c (snd (mbind m f s)).
Proof. unfold bad_end, mbind. destruct (m s) as [[s1 o1] r]. cbn. destruct c; [intros ->; reflexivity|intros [x ->]; exists x; reflexivity]. Qed.
Lemma first_bad_nil c : ~ first_bad [] c.
Proof. intros ([|] & ? & E & _); discriminate. Qed.
Lemma first_bad_cons c names d : first_bad (c :: names) d -> good_name c /\ first_bad names d \/ c = d /\ ~ good_name d.
Proof.
  intros ([|a pre] & post & E & H1 & H2); injection E as -> ->; [right; auto|]. inversion H1; subst. left. split; [auto|]. exists pre, post. auto.
Qed.
Lemma bad_first {T O A} c (g : N -> T -> T * list O * outcome A) s : ~ good_name c ->
  bad_end c (snd (mbind (mlift (name_get_minus c 1)) (fun last => mbind (mlift (to_number last)) g) s)).
Proof.
  intros H. destruct (good_dec c) as [G|[->|((last & x & E1 & E2) & _ & Ne)]]; [contradiction|reflexivity|].
  rewrite mbind_lift, E1, mbind_lift, E2. destruct c; [congruence|]. exists x. reflexivity.
Qed.

(** the update of a node's own IBF fails: counts overflow (beyond 2^31 prefixes, C11), or the table is empty *)
Definition ibf_fails {A} (r : outcome A) : Prop := r = UB UbIntOverflow \/ r = UB UbModZero.
Lemma iblt_update_ends t pm k : (exists t', iblt_update t pm k = Ok t') \/ ibf_fails (iblt_update t pm k).
Proof.
  destruct (Nat.eq_dec (Nat.div (length t) 3) 0) as [E|E].
  - right; right. apply iblt_update_zero. exact E.
  - destruct (iblt_update_outcomes t pm k E) as [[t' ->] | ->]; [left; eauto|right; left; reflexivity].
Qed.
Lemma ends_bind {A B} (m : outcome A) (f : A -> outcome B) : (exists a, m = Ok a) \/ ibf_fails m -> (forall a, (exists b, f a = Ok b) \/ ibf_fails (f a)) ->
  (exists b, obind m f = Ok b) \/ ibf_fails (obind m f).
Proof. intros [[a ->]|[->| ->]] Hf; [apply Hf|right; left; reflexivity|right; right; reflexivity]. Qed.
Lemma forget_ends nm k : (exists k', core_forget nm k = Ok k') \/ ibf_fails (core_forget nm k).
Proof. unfold core_forget. destruct (bm_right nm (k_bimap k)); [|left; eauto]. apply ends_bind; [apply iblt_update_ends|left; eauto]. Qed.
Lemma cstep_ends k o : (exists k', cstep k o = Ok k') \/ ibf_fails (cstep k o).
Proof.
  assert (forall p s, (exists k', core_update p s k = Ok k') \/ ibf_fails (core_update p s k)) as U.
  { intros p s. unfold core_update. destruct (nm_find p (k_prefixes k)) as [old|]; [|left; eauto].
    destruct (s <=? old); [left; eauto|]. apply ends_bind.
    - destruct (old =? 0); [left; eauto|apply forget_ends].
    - intros k1. apply ends_bind; [apply iblt_update_ends|left; eauto]. }
  destruct o as [p|p|p s|p s]; cbn [cstep].
  - left; eauto.
  - unfold core_remove. destruct (nm_find p (k_prefixes k)); [apply forget_ends|left; eauto].
  - apply U.
  - unfold omap, core_publish. apply ends_bind; [|left; eauto].
    destruct (nm_find p (k_prefixes k)); [|left; eauto]. apply ends_bind; [apply U|left; eauto].
Qed.
Lemma op_ends o s : res (fp_op o s) = Ok tt \/ ibf_fails (res (fp_op o s)).
Proof.
  unfold fp_op. rewrite mbind_get, mbind_lift. destruct (cstep_ends (f_core s) o) as [[k ->]|[->| ->]]; [left; reflexivity|right; left; reflexivity|right; right; reflexivity].
Qed.
Lemma res_bind_ends {A B} (m : FM A) (f : A -> FM B) (P : outcome B -> Prop) s :
  (exists a, res (m s) = Ok a) \/ ibf_fails (res (m s)) -> (forall u, ibf_fails u -> P u) -> (forall a s', P (res (f a s'))) -> P (res (mbind m f s)).
Proof.
  intros H H1 H2. unfold mbind, res in *. destruct (m s) as [[s1 o1] r1]. cbn [snd] in *. destruct H as [[a ->]|[->| ->]].
  - specialize (H2 a s1). destruct (f a s1) as [[s2 o2] r2]. exact H2.
  - apply H1. left. reflexivity.
  - apply H1. right. reflexivity.
Qed.
Lemma take_bad names : forall c, first_bad names c -> forall s, bad_end c (res (take_updates names s)) \/ ibf_fails (res (take_updates names s)).
Proof.
  induction names as [|d names IH]; intros c Hb s; [destruct (first_bad_nil _ Hb)|].
  cbn [take_updates]. destruct (first_bad_cons _ _ _ Hb) as [[G Hb']|[-> Nb]]; [|left; apply bad_first; exact Nb].
  destruct (good_split _ G) as (last & v & E1 & E2). rewrite mbind_lift, E1, mbind_lift, E2. cbv zeta. rewrite mbind_get.
  specialize (IH c Hb'). destruct (match get_seq _ _ with None => true | Some cur => cur <? v end); [|apply IH].
  apply res_bind_ends; [|intros u Hu; right; exact Hu|intros cur s1; apply res_bind_ends; [|intros u Hu; right; exact Hu|intros x s2]].
  - unfold prefix_seq. rewrite mbind_get. destruct (get_seq _ _); [left; eexists; reflexivity|].
    unfold mbind, res. destruct (op_ends (CAdd (name_prefix_back d 1)) s) as [E|E]; unfold res in E; destruct (fp_op _ s) as [[a b] r]; cbn [snd] in *;
      [subst r; left; eexists; reflexivity|right; destruct E as [->| ->]; [left|right]; reflexivity].
  - destruct (op_ends (CUpdate (name_prefix_back d 1) v) s1) as [E|E]; [left; eauto|right; exact E].
  - destruct (IH s2) as [H|[H|H]].
    + left. apply bad_end_bind. exact H.
    + right; left. unfold mbind, res in *. destruct (take_updates names s2) as [[a b] r]. cbn [snd] in *. subst r. reflexivity.
    + right; right. unfold mbind, res in *. destruct (take_updates names s2) as [[a b] r]. cbn [snd] in *. subst r. reflexivity.
Qed.

(** a content ends in an exception only if a name of it does not end in a number, the first such name
    not being empty, and reads out of bounds only if the first such name is empty; and every such
    content does, unless a name before it made the update of the own IBF fail *)
Theorem C43_full_ends_badly_exactly_when : forall K sys evs s o i buf script n,
  schemes_ok K -> uri_ok K -> reaches K sys evs s o -> fetch_of i (f_live s) = Some n ->
  let r := res (fp_step K (FeContent i buf script) s) in
  ((exists x, r = Throw x) -> exists names c, content_names K buf names /\ first_bad names c /\ c <> []) /\
  (r = UB UbOutOfBounds -> exists names, content_names K buf names /\ first_bad names []) /\
  (forall names c, content_names K buf names -> first_bad names c -> ~ ibf_fails r ->
     match c with [] => r = UB UbOutOfBounds | _ => exists x, r = Throw x end).
Proof.
  intros K sys evs s o i buf script n Sk Uk R Hl r.
  assert (forall names c, content_names K buf names -> first_bad names c -> bad_end c r \/ ibf_fails r) as H.
  { intros names c Hc Hb. subst r. cbn [fp_step]. rewrite mbind_get, Hl, mbind_mod. unfold on_sync_data, delete_pending. rewrite mbind_mod.
    unfold content_names in Hc. rewrite Hc. set (s1 := fset_pending _ _). destruct (take_bad names c Hb s1) as [B|B].
    - left. apply bad_end_bind. exact B.
    - right. unfold mbind at 1. unfold res in B |- *. destruct (take_updates names s1) as [[a b] r]. cbn [snd] in *. destruct B as [->| ->]; [left|right]; reflexivity. }
  assert (tame r \/ exists names c, content_names K buf names /\ first_bad names c) as D.
  { destruct (content_cases (fc_codec K) (fc_cscheme K) buf) as [[names E]|[e E]].
    - destruct (names_cases names) as [G|[c Hb]]; [left|right; exists names, c; split; auto].
      apply (C43_full_survives_good_content_partial K sys evs s o i buf script Sk Uk R). intros l Hc. unfold content_names in Hc. congruence.
    - left. apply (C43_full_survives_good_content_partial K sys evs s o i buf script Sk Uk R). intros l Hc. unfold content_names in Hc. congruence. }
  split; [|split].
  - intros [x E]. destruct D as [D|(names & c & Hc & Hb)]; [rewrite E in D; contradiction|]. exists names, c. split; [exact Hc|]. split; [exact Hb|].
    intros ->. destruct (H _ _ Hc Hb) as [B|[B|B]]; rewrite E in B; discriminate.
  - intros E. destruct D as [D|(names & c & Hc & Hb)]; [rewrite E in D; contradiction|]. exists names. split; [exact Hc|].
    destruct c; [exact Hb|]. destruct (H _ _ Hc Hb) as [[x B]|[B|B]]; rewrite E in B; discriminate.
  - intros names c Hc Hb Nf. destruct (H _ _ Hc Hb) as [B|B]; [exact B|contradiction].
Qed.
Print Assumptions C43_full_ends_badly_exactly_when.

(** for a consumer also when the content is no list of names; contents that follow a nack are not read *)
Lemma take_sync_bad names : forall c, first_bad names c -> forall s, bad_end c (res (take_sync names s)).
Proof.
  induction names as [|d names IH]; intros c Hb s; [destruct (first_bad_nil _ Hb)|].
  cbn [take_sync]. destruct (first_bad_cons _ _ _ Hb) as [[G Hb']|[-> Nb]]; [|apply bad_first; exact Nb].
  destruct (good_split _ G) as (last & v & E1 & E2). rewrite mbind_lift, E1, mbind_lift, E2. cbv zeta. rewrite mbind_get.
  specialize (IH c Hb'). destruct (match nm_find _ _ with None => true | Some cur => cur <? v end); [|apply IH].
  rewrite mbind_mod. apply bad_end_bind. apply IH.
Qed.
Lemma take_hello_bad names : forall c, first_bad names c -> forall av s, bad_end c (res (take_hello names av s)).
Proof.
  induction names as [|d names IH]; intros c Hb av s; [destruct (first_bad_nil _ Hb)|].
  cbn [take_hello]. destruct (first_bad_cons _ _ _ Hb) as [[G Hb']|[-> Nb]]; [|apply bad_first; exact Nb].
  destruct (good_split _ G) as (last & v & E1 & E2). rewrite mbind_lift, E1, mbind_lift, E2. cbv zeta. rewrite mbind_get.
  specialize (IH c Hb'). destruct (is_subscribed _ _ && _); [|apply IH].
  rewrite mbind_mod. apply bad_end_bind. apply IH.
Qed.
(** the content is read: a hello reply, or a sync reply whose last segment was not a nack *)
Definition is_read (i : nat) (s : cs) : Prop :=
  exists n, cfetch i (c_live s) = Some (KHello, n) \/ cfetch i (c_live s) = Some (KSync, n) /\ is_nack (c_type s) = false.
Theorem C43_consumer_ends_badly_exactly_when : forall K evs s o i buf sc1 sc2,
  filter_ok K -> rate_ok K -> creaches K evs s o -> c_sname s <> [] -> c_hname s <> [] ->
  let r := res (c_step K (CeContent i buf sc1 sc2) s) in
  ((exists x, r = Throw x) <-> is_read i s /\
     ((exists x, state_of_buffer buf = Throw x) \/ exists names c, state_of_buffer buf = Ok names /\ first_bad names c /\ c <> [])) /\
  (r = UB UbOutOfBounds <-> is_read i s /\ exists names, state_of_buffer buf = Ok names /\ first_bad names []) /\
  (r = Ok tt <-> (is_read i s -> cgood_content buf)).
Proof.
  intros K evs s o i buf sc1 sc2 Fk Rk R Hs Hh r.
  assert (is_read i s -> forall x, state_of_buffer buf = Throw x -> r = Throw x) as A.
  { intros (n & Hr) x E. subst r. cbn [c_step]. rewrite mbind_get. destruct Hr as [-> |[-> Hn]]; unfold finish; rewrite mbind_mod.
    - unfold on_hello_data. rewrite mbind_mod, mbind_lift, E. reflexivity.
    - rewrite Hn. unfold on_csync_data. rewrite mbind_mod, mbind_lift, E. reflexivity. }
  assert (is_read i s -> forall names c, state_of_buffer buf = Ok names -> first_bad names c -> bad_end c r) as B.
  { intros (n & Hr) names c E Hb. subst r. cbn [c_step]. rewrite mbind_get. destruct Hr as [-> |[-> Hn]]; unfold finish; rewrite mbind_mod.
    - unfold on_hello_data. rewrite mbind_mod, mbind_lift, E. apply bad_end_bind, take_hello_bad. exact Hb.
    - rewrite Hn. unfold on_csync_data. rewrite mbind_mod, mbind_lift, E. apply bad_end_bind, take_sync_bad. exact Hb. }
  assert ((is_read i s -> cgood_content buf) -> r = Ok tt) as C.
  { intros G. subst r. 
    assert (cgood_content buf \/ ~ is_read i s) as [Gc|Nr].
    { destruct (cfetch i (c_live s)) as [[[] n]|] eqn:F; [left; apply G; exists n; left; exact F| |right; intros (n & [E|[E _]]); congruence].
      destruct (is_nack (c_type s)) eqn:N; [right; intros (m & [E|[_ E]]); congruence|left; apply G; exists n; right; auto]. }
    - eapply C43_consumer_survives_good_content_partial; eauto.
    - cbn [c_step]. rewrite mbind_get. destruct (cfetch i (c_live s)) as [[[] n]|] eqn:F; [destruct Nr; exists n; left; exact F| |reflexivity].
      destruct (is_nack (c_type s)) eqn:N; [reflexivity|]. destruct Nr. exists n. right; auto. }
  assert (is_read i s -> r = Ok tt \/ (exists x, state_of_buffer buf = Throw x) \/ exists names c, state_of_buffer buf = Ok names /\ first_bad names c) as D.
  { intros Hr. destruct (state_of_buffer_cases buf) as [[names E]|[x E]]; [|right; left; eauto].
    destruct (names_cases names) as [G|[c Hb]]; [left; apply C; intros _; exists names; auto|right; right; eauto]. }
  assert (is_read i s \/ ~ is_read i s) as [Hr|Nr].
  { destruct (cfetch i (c_live s)) as [[[] n]|] eqn:F; [left; exists n; left; exact F| |right; intros (n & [E|[E _]]); congruence].
    destruct (is_nack (c_type s)) eqn:N; [right; intros (m & [E|[_ E]]); congruence|left; exists n; right; auto]. }
  - specialize (A Hr). specialize (B Hr). specialize (D Hr). split; [split|split; [split|split]].
    + intros [x E]. split; [exact Hr|]. destruct D as [D|[D|(names & c & D1 & D2)]]; [congruence|left; exact D|right]. exists names, c. split; [exact D1|]. split; [exact D2|].
      intros ->. pose proof (B _ _ D1 D2) as X. cbn in X. congruence.
    + intros (_ & [[x E]|(names & c & E & Hb & Ne)]); [exists x; auto|]. pose proof (B _ _ E Hb) as X. destruct c; [congruence|exact X].
    + intros E. split; [exact Hr|]. destruct D as [D|[[x D]|(names & c & D1 & D2)]]; [congruence|apply A in D; congruence|]. exists names. split; [exact D1|].
      destruct c; [exact D2|]. destruct (B _ _ D1 D2) as [x X]. congruence.
    + intros (_ & names & E & Hb). exact (B _ _ E Hb).
    + intros E _. destruct (state_of_buffer_cases buf) as [[names E']|[x E']]; [|apply A in E'; congruence]. exists names. split; [exact E'|].
      destruct (names_cases names) as [G|[c Hb]]; [exact G|]. pose proof (B _ _ E' Hb) as X. unfold bad_end in X. destruct c; [congruence|destruct X; congruence].
    + exact C.
  - assert (r = Ok tt) as E by (apply C; tauto). rewrite E. split; [split; [intros [x X]; discriminate|tauto]|]. split; [split; [discriminate|tauto]|]. tauto.
Qed.
Print Assumptions C43_consumer_ends_badly_exactly_when.

(** hypotheses: a fetch in progress, and contents of each kind *)
Example C43_exact_example :
  (exists s o n, reaches Kf 0 [] s o /\ fetch_of 0 (f_live s) = Some n) /\
  (exists names c, content_names Kf wild_content names /\ first_bad names c /\ c <> []) /\
  (exists names, content_names Kf empty_content names /\ first_bad names []) /\
  is_read 1 s_c2.
Proof.
  split; [eexists _, _, _; split; [apply reaches_example; [constructor|vm_compute; reflexivity]|vm_compute; reflexivity]|].
  split; [|split].
  - exists [[gen [x70]; gen [x61; x62; x63]]], [gen [x70]; gen [x61; x62; x63]]. split; [vm_compute; reflexivity|]. split; [|discriminate].
    exists [], []. split; [reflexivity|]. split; [constructor|]. intros (p & v & E & x & X).
    destruct p as [|a [|b [|]]]; try discriminate. injection E as _ <-. vm_compute in X. discriminate.
  - exists [[]]. split; [vm_compute; reflexivity|]. exists [], []. split; [reflexivity|]. split; [constructor|apply empty_bad].
  - eexists. right. split; vm_compute; reflexivity.
Qed.
