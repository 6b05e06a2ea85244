(** Facts about what consumers do with replies and errors. *)
From Coq Require Import List NArith ZArith Bool Arith Lia.
From Verif Require Import Base BaseFacts Mon MonFacts Iblt Tlv TlvFacts State StateFacts NMap NMapFacts Codec
  Bloom SpecBloom BloomFacts Store Producer SpecProducer Partial PartialFacts PartialSteps Full FullTrace
  SpecFull FullData FullRuns Consumer SpecConsumer ConsumerFacts.
Import ListNotations.
Local Open Scope N_scope.

(** ** The hello callback *)
Lemma find_emplace {V} k v (m : nmap V) k' : nm_find k' (nm_emplace k v m) =
  match nm_find k' m with Some x => Some x | None => if name_eqb k' k then Some v else None end.
Proof.
  unfold nm_emplace. destruct (nm_find k m) as [x|] eqn:E.
  - destruct (nm_find k' m) eqn:E'; auto. destruct (name_eqb k' k) eqn:Q; auto. apply name_eqb_eq in Q. subst. congruence.
  - rewrite nm_find_set. destruct (name_eqb k' k) eqn:Q; [|destruct (nm_find k' m); auto]. apply name_eqb_eq in Q. subst. rewrite E. reflexivity.
Qed.
Lemma snoc_eq (p q : name) x y : p ++ [x] = q ++ [y] -> p = q /\ x = y.
Proof. apply app_inj_tail. Qed.
Lemma take_hello_avail names : forall av s l av', res (take_hello names av s) = Ok (l, av') -> forall p v,
  nm_find p av' = Some v <-> nm_find p av = Some v \/ (nm_find p av = None /\ first_for names p v).
Proof.
  induction names as [|c names IH]; intros av s l av'; cbn [take_hello].
  - intros [= _ <-] p v. split; [auto|]. intros [H|[_ ([|a l1] & x & l2 & E & _)]]; [exact H|discriminate..].
  - rewrite mbind_lift. destruct (name_get_minus c 1) as [last|e|u|] eqn:Eg; try discriminate.
    rewrite mbind_lift. destruct (to_number last) as [w|e|u|] eqn:Ew; try discriminate.
    cbv zeta. rewrite mbind_get. apply name_split in Eg. set (q := name_prefix_back c 1) in *.
    intros R. assert (exists s1 l1, res (take_hello names (nm_emplace q w av) s1) = Ok (l1, av')) as (s1 & l1 & R1).
    { destruct (is_subscribed q s && _); [|eexists _, _; exact R]. rewrite mbind_mod in R. set (s1 := cset_prefixes _ s) in R.
      exists s1. unfold mbind in R. destruct (take_hello names (nm_emplace q w av) s1) as [[s2 o2] [x|x|x|]] eqn:T; try discriminate.
      cbn in R. injection R as _ R. exists (fst x). cbn. f_equal. destruct x. simpl in *. congruence. }
    clear R. intros p v. rewrite (IH _ _ _ _ R1 p v), find_emplace. rewrite Eg. clear IH R1. destruct (nm_find p av) as [y|] eqn:Ep.
    + split; [intros [H|[H _]]; [auto|discriminate]|intros [H|[H _]]; [auto|discriminate]].
    + destruct (name_eqb p q) eqn:Q.
      * apply name_eqb_eq in Q. subst p. split.
        -- intros [[= <-]|[H _]]; [|discriminate]. right. split; [reflexivity|]. exists [], last, names. split; [reflexivity|]. split; [exact Ew|]. intros y [].
        -- intros [H|[_ (l2 & x & l3 & E & X & N)]]; [discriminate|]. left. destruct l2 as [|b l2].
           ++ cbn [app] in E. injection E as E _. apply snoc_eq in E as [_ ->]. congruence.
           ++ injection E as <- _. destruct (N last). left. reflexivity.
      * assert (p <> q) as Q' by (intros ->; rewrite name_eqb_refl in Q; discriminate). split.
        -- intros [H|[_ (l2 & x & l3 & -> & X & N)]]; [discriminate|]. right. split; [reflexivity|]. exists ((q ++ [last]) :: l2), x, l3. split; [reflexivity|]. split; [exact X|].
           intros y [H|H]; [apply snoc_eq in H as [H _]; congruence|destruct (N _ H)].
        -- intros [H|[_ (l2 & x & l3 & E & X & N)]]; [discriminate|]. right. split; [reflexivity|]. destruct l2 as [|b l2].
           ++ cbn [app] in E. injection E as E _. apply snoc_eq in E as [E _]. congruence.
           ++ injection E as _ ->. exists l2, x, l3. split; [reflexivity|]. split; [exact X|]. intros y Y. apply (N y). right. exact Y.
Qed.

(** ** Outputs of a kind *)
Definition no_hello (x : cout) : Prop := forall av, x <> CoHello av.
Definition anyS (s : cs) : Prop := True.
Lemma nh_send_hello K : hoare anyS no_hello (send_hello K).
Proof. intros s _. split; [exact I|]. rewrite send_hello_eq. constructor; [discriminate|constructor]. Qed.
Lemma nh_send_sync K : hoare anyS no_hello (send_sync K).
Proof.
  intros s _. split; [exact I|]. rewrite send_sync_eq. destruct (c_iblt s); [constructor|]. destruct (append_bloom _ _); constructor; [discriminate|constructor].
Qed.
Ltac nh_emit := apply hoare_emit; constructor; [discriminate|constructor].
Lemma nh_get {B} (f : cs -> CM B) : (forall s, hoare anyS no_hello (f s)) -> hoare anyS no_hello (mbind mget f).
Proof. intros Hf s H. rewrite mbind_get. apply Hf. exact H. Qed.
Lemma nh_mod f : hoare anyS no_hello (mmod f).
Proof. apply hoare_mod. auto. Qed.
Lemma nh_call K a : hoare anyS no_hello (call K a).
Proof.
  destruct a as [p v cb|p| | |]; cbn [call]; [..|apply nh_send_hello|apply nh_send_sync|apply nh_mod].
  - apply hoare_bind; [|intros; nh_emit]. unfold add_sub. apply nh_get. intros s. destruct (nm_find _ _); [apply hoare_ret|].
    apply hoare_bind; [apply nh_mod|intros _]. apply hoare_bind; [apply hoare_lift|intros b]. apply hoare_bind; [apply nh_mod|intros _].
    apply hoare_bind; [|intros _; apply hoare_ret]. destruct (_ && _); [nh_emit|apply hoare_ret].
  - apply hoare_bind; [|intros; nh_emit]. unfold remove_sub. apply nh_get. intros s. destruct (is_subscribed _ _); [|apply hoare_ret].
    apply hoare_bind; [apply nh_mod|intros _]. apply hoare_bind; [apply hoare_lift|intros b]. apply hoare_bind; [apply nh_mod|intros _]. apply hoare_ret.
Qed.
Lemma nh_calls K l : hoare anyS no_hello (calls K l).
Proof. induction l as [|a l IH]; cbn [calls]; [apply hoare_ret|]. apply hoare_bind; [apply nh_call|intros _; exact IH]. Qed.
Lemma nh_on_sync K buf a : hoare anyS no_hello (on_csync_data K buf a).
Proof.
  unfold on_csync_data. apply hoare_bind; [apply nh_mod|intros _]. apply hoare_bind; [apply hoare_lift|intros names]. apply hoare_bind.
  - intros x Hx. destruct (take_sync_inv names x) as (-> & _). split; [exact I|constructor].
  - intros l. apply hoare_bind; [|intros _; apply nh_send_sync]. destruct l; [apply hoare_ret|]. apply hoare_bind; [nh_emit|intros _]. apply nh_calls.
Qed.
(** only a completed hello fetch calls the hello callback *)
Lemma nh_step K e s : (forall i buf sc1 sc2 n, e = CeContent i buf sc1 sc2 -> cfetch i (c_live s) <> Some (KHello, n)) ->
  Forall no_hello (outs (c_step K e s)).
Proof.
  intros H. destruct e as [a|i d|i buf sc1 sc2|i to|dt|i]; cbn [c_step].
  - apply nh_call. exact I.
  - rewrite mbind_get. destruct (cfetch i (c_live s)) as [[[] n]|]; [..|constructor].
    + destruct (d_final d); constructor.
    + apply (hoare_bind anyS no_hello); [destruct (d_final d); [apply nh_mod|apply hoare_ret]|intros _; apply nh_get; intros s1|exact I].
      destruct (is_nack _); [apply nh_send_hello|apply hoare_ret].
  - rewrite mbind_get. destruct (cfetch i (c_live s)) as [[[] n]|] eqn:E; [destruct (H _ _ _ _ _ eq_refl E)|..|constructor].
    unfold finish. rewrite mbind_mod. destruct (is_nack _); [constructor|]. apply nh_on_sync. exact I.
  - rewrite mbind_get. destruct (cfetch i (c_live s)) as [[[] n]|]; [..|constructor]; unfold finish; rewrite mbind_mod; [constructor|].
    destruct to; [apply nh_send_sync; exact I|constructor].
  - constructor.
  - rewrite mbind_get. destruct (nth_error _ _) as [[dl k]|]; [|constructor]. destruct (dl <=? _); [|constructor]. rewrite mbind_mod.
    destruct k; [apply nh_send_hello|apply nh_send_sync]; exact I.
Qed.
Lemma hello_outs K i buf sc1 sc2 s n names : cfetch i (c_live s) = Some (KHello, n) -> state_of_buffer buf = Ok names -> Forall good_name names ->
  exists av o2, outs (c_step K (CeContent i buf sc1 sc2) s) = CoHello av :: o2 /\ Forall no_hello o2 /\
    forall p v, nm_find p av = Some v <-> first_for names p v.
Proof.
  intros Hi B1 B2. cbn [c_step]. rewrite mbind_get, Hi. unfold finish. rewrite mbind_mod. unfold on_hello_data. rewrite mbind_mod, mbind_lift, B1.
  set (s2 := cset_iblt _ _). destruct (take_hello_good names B2 [] s2) as [[l av] El]. pose proof (take_hello_avail names [] s2 l av El) as A.
  destruct (take_hello_inv names [] s2) as (T1 & _). destruct (take_hello names [] s2) as [[s3 o3] r3] eqn:T. cbn [outs res fst snd] in *. subst o3 r3.
  rewrite (mbind_run _ _ _ _ _ _ T), mbind_emit. cbn [fst snd app].
  assert (forall m : CM unit, hoare anyS no_hello m -> exists o2, outs (m s3) = o2 /\ Forall no_hello o2) as G.
  { intros m Hm. destruct (Hm s3 I) as [_ F]. exists (outs (m s3)). split; [reflexivity|exact F]. }
  match goal with |- context [mbind ?a ?b] => destruct (G (mbind a b)) as (o2 & E & F) end.
  { apply hoare_bind; [apply nh_calls|intros _]. destruct l; [apply hoare_ret|]. apply hoare_bind; [nh_emit|intros _]. apply nh_calls. }
  exists av, o2. split; [cbn [outs fst snd]; f_equal; exact E|]. split; [exact F|]. intros p v. rewrite A. split; [intros [H|[_ H]]; [discriminate|exact H]|auto].
Qed.

(** ** The IBF that sync interests carry *)
Section Held.
Variables (K : ccfg) (X : name).
Definition hI (s : cs) : Prop := c_iblt s = X.
Definition hP (x : cout) : Prop := forall n, x = CoInterest KSync n -> exists f1 f2 f3, n = sync_prefix K ++ [f1; f2; f3] ++ X /\ X <> [].
Lemma held_send_hello : hoare hI hP (send_hello K).
Proof.
  intros s H. rewrite send_hello_eq. cbn [st outs fst snd]. split; [|constructor; [discriminate|constructor]].
  unfold hI in *. destruct (c_hello s); exact H.
Qed.
Lemma held_send_sync : hoare hI hP (send_sync K).
Proof.
  intros s H. rewrite send_sync_eq. unfold hI in H. destruct (c_iblt s) as [|c r] eqn:E; [split; [unfold hI; rewrite <- H; exact E|constructor]|].
  destruct (append_bloom _ _) as [n1|e|u|] eqn:A; try (split; [unfold hI; cbn [st fst snd]; congruence|constructor]).
  cbn [st outs fst snd]. split; [unfold hI in *; destruct (c_sync s); simpl; congruence|]. constructor; [|constructor].
  intros n [= <-]. unfold append_bloom in A. destruct (d_cast _ _) as [k|?|?|]; try discriminate. cbn [obind] in A. injection A as <-.
  rewrite <- H. eexists _, _, _. split; [|discriminate]. unfold append_bytes, append_number. rewrite <- !app_assoc. reflexivity.
Qed.
Ltac h_emit := apply hoare_emit; constructor; [discriminate|constructor].
Lemma held_mod f : (forall s, c_iblt (f s) = c_iblt s) -> hoare hI hP (mmod f).
Proof. intros H. apply hoare_mod. intros s. unfold hI. rewrite H. auto. Qed.
Lemma held_get {B} (f : cs -> CM B) : (forall s, hoare hI hP (f s)) -> hoare hI hP (mbind mget f).
Proof. intros Hf s H. rewrite mbind_get. apply Hf. exact H. Qed.
Lemma held_call a : hoare hI hP (call K a).
Proof.
  destruct a as [p v cb|p| | |]; cbn [call]; [..|apply held_send_hello|apply held_send_sync|].
  - apply hoare_bind; [|intros; h_emit]. unfold add_sub. apply held_get. intros s. destruct (nm_find _ _); [apply hoare_ret|].
    apply hoare_bind; [apply held_mod; reflexivity|intros _]. apply hoare_bind; [apply hoare_lift|intros b]. apply hoare_bind; [apply held_mod; reflexivity|intros _].
    apply hoare_bind; [|intros _; apply hoare_ret]. destruct (_ && _); [h_emit|apply hoare_ret].
  - apply hoare_bind; [|intros; h_emit]. unfold remove_sub. apply held_get. intros s. destruct (is_subscribed _ _); [|apply hoare_ret].
    apply hoare_bind; [apply held_mod; reflexivity|intros _]. apply hoare_bind; [apply hoare_lift|intros b]. apply hoare_bind; [apply held_mod; reflexivity|intros _]. apply hoare_ret.
  - apply held_mod. intros s. destruct s as [? ? ? ? ? ? ? ? [h|] [y|] ? ? ? ?]; reflexivity.
Qed.
Lemma held_calls l : hoare hI hP (calls K l).
Proof. induction l as [|a l IH]; cbn [calls]; [apply hoare_ret|]. apply hoare_bind; [apply held_call|intros _; exact IH]. Qed.
Lemma held_on_hello buf a b s : last_comp (c_hname s) = X -> hI (st (on_hello_data K buf a b s)) /\ Forall hP (outs (on_hello_data K buf a b s)).
Proof.
  intros H. unfold on_hello_data. rewrite mbind_mod. assert (hI (cset_iblt (last_comp (c_hname s)) s)) as H1 by exact H.
  revert H1. generalize (cset_iblt (last_comp (c_hname s)) s). clear s H.
  change (hoare hI hP (mlet names <- mlift (state_of_buffer buf); mlet x <- take_hello names []; memit [CoHello (snd x)] ;;
    calls K a ;; match fst x with [] => mret tt | updates => memit [CoUpdate updates] ;; calls K b end)).
  apply hoare_bind; [apply hoare_lift|intros names]. apply hoare_bind.
  - intros x Hx. destruct (take_hello_inv names [] x) as (-> & (m & -> & _) & _). split; [exact Hx|constructor].
  - intros x. apply hoare_bind; [h_emit|intros _]. apply hoare_bind; [apply held_calls|intros _].
    destruct (fst x); [apply hoare_ret|]. apply hoare_bind; [h_emit|intros _]. apply held_calls.
Qed.
Lemma held_on_sync buf a s : last_comp (c_sname s) = X -> hI (st (on_csync_data K buf a s)) /\ Forall hP (outs (on_csync_data K buf a s)).
Proof.
  intros H. unfold on_csync_data. rewrite mbind_mod. assert (hI (cset_iblt (last_comp (c_sname s)) s)) as H1 by exact H.
  revert H1. generalize (cset_iblt (last_comp (c_sname s)) s). clear s H.
  change (hoare hI hP (mlet names <- mlift (state_of_buffer buf); mlet updates <- take_sync names;
    (match updates with [] => mret tt | _ => memit [CoUpdate updates] ;; calls K a end) ;; send_sync K)).
  apply hoare_bind; [apply hoare_lift|intros names]. apply hoare_bind.
  - intros x Hx. destruct (take_sync_inv names x) as (-> & (m & -> & _) & _). split; [exact Hx|constructor].
  - intros l. apply hoare_bind; [|intros _; apply held_send_sync]. destruct l; [apply hoare_ret|]. apply hoare_bind; [h_emit|intros _]. apply held_calls.
Qed.
Lemma held_step e s : hI s -> (forall i buf sc1 sc2, e = CeContent i buf sc1 sc2 -> cfetch i (c_live s) = None) ->
  hI (st (c_step K e s)) /\ Forall hP (outs (c_step K e s)).
Proof.
  intros H Hc. destruct e as [a|i d|i buf sc1 sc2|i to|dt|i]; cbn [c_step].
  - apply held_call. exact H.
  - rewrite mbind_get. destruct (cfetch i (c_live s)) as [[[] n]|]; [..|split; [exact H|constructor]].
    + destruct (d_final d); (split; [exact H|constructor]).
    + apply (hoare_bind hI hP); [destruct (d_final d); [apply held_mod; reflexivity|apply hoare_ret]|intros _; apply held_get; intros s1|exact H].
      destruct (is_nack _); [apply held_send_hello|apply hoare_ret].
  - rewrite mbind_get, (Hc _ _ _ _ eq_refl). split; [exact H|constructor].
  - rewrite mbind_get. destruct (cfetch i (c_live s)) as [[[] n]|]; [..|split; [exact H|constructor]]; unfold finish; rewrite mbind_mod; [split; [exact H|constructor]|].
    destruct to; [apply held_send_sync; exact H|split; [exact H|constructor]].
  - split; [exact H|constructor].
  - rewrite mbind_get. destruct (nth_error _ _) as [[dl k]|]; [|split; [exact H|constructor]]. destruct (dl <=? _); [|split; [exact H|constructor]]. rewrite mbind_mod.
    destruct k; [apply held_send_hello|apply held_send_sync]; exact H.
Qed.
End Held.

(** ** Nothing but a timer *)
Definition only_timer (dl : N) (k : kind) (s : cs) : Prop := c_live s = [] /\ c_timers s = [(dl, k)].
Lemma idle_step K dl k e s : only_timer dl k s -> external e -> c_now s + elapsed [e] < dl ->
  exists s', c_step K e s = (s', [], Ok tt) /\ only_timer dl k s' /\ c_now s' = c_now s + elapsed [e] /\ c_iblt s' = c_iblt s /\ c_bloom s' = c_bloom s.
Proof.
  intros [L T] Ex. destruct e as [a|i d|i buf sc1 sc2|i to|dt|i]; cbn [elapsed c_step]; intros Lt; rewrite ?N.add_0_r in *.
  - destruct (Ex a eq_refl).
  - rewrite mbind_get, L. exists s. repeat split; auto. 
  - rewrite mbind_get, L. exists s. repeat split; auto.
  - rewrite mbind_get, L. exists s. repeat split; auto.
  - eexists. split; [reflexivity|]. repeat split; auto.
  - rewrite mbind_get, T. exists s. destruct i as [|[|i]]; cbn [nth_error].
    + assert (dl <=? c_now s = false) as -> by (apply N.leb_gt; lia). repeat split; auto.
    + repeat split; auto.
    + repeat split; auto.
Qed.
Lemma idle_run K dl k evs : forall s, only_timer dl k s -> Forall external evs -> c_now s + elapsed evs < dl ->
  exists s', c_run K s evs = Some (s', []) /\ only_timer dl k s' /\ c_now s' = c_now s + elapsed evs /\ c_iblt s' = c_iblt s /\ c_bloom s' = c_bloom s.
Proof.
  induction evs as [|e evs IH]; intros s T F Lt.
  - exists s. cbn [elapsed]. rewrite N.add_0_r. repeat split; auto; apply T.
  - inversion F as [|x y F1 F2]; subst.
    assert (elapsed (e :: evs) = elapsed [e] + elapsed evs) as Q by (destruct e; cbn [elapsed]; lia).
    rewrite Q in Lt. destruct (idle_step K dl k e s T F1) as (s1 & E & T1 & N1 & I1 & B1); [lia|].
    destruct (IH s1 T1 F2) as (s2 & R2 & T2 & N2 & I2 & B2); [lia|]. exists s2.
    split; [|split; [exact T2|split; [lia|split; congruence]]]. unfold c_run in *. cbn [run]. rewrite E, R2. reflexivity.
Qed.

(** no content: the IBF stays *)
Lemma held_run K X evs : Forall (fun e => content_of e = []) evs -> forall s s' o, c_iblt s = X -> c_run K s evs = Some (s', o) ->
  c_iblt s' = X /\ Forall (hP K X) o.
Proof.
  induction 1 as [|e evs H F IH]; intros s s' o Hs R; unfold c_run in *; cbn [run] in R.
  - injection R as <- <-. split; [exact Hs|constructor].
  - assert (hI X (st (c_step K e s)) /\ Forall (hP K X) (outs (c_step K e s))) as [H1 H2].
    { apply held_step; [exact Hs|]. intros i buf sc1 sc2 ->. discriminate. }
    destruct (c_step K e s) as [[s1 o1] r]. cbn [st outs fst snd] in *.
    destruct r; try discriminate; destruct (run (c_step K) s1 evs) as [[s2 o2]|] eqn:R2; try discriminate; injection R as <- <-;
      (destruct (IH _ _ _ H1 R2) as [A B]; split; [exact A|apply Forall_app; split; [exact H2|exact B]]).
Qed.
