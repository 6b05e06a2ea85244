(** The names on the wire. *)
From Coq Require Import List NArith ZArith Bool Arith Lia.
From Verif Require Import Base BaseFacts Mon MonFacts Iblt SpecIblt IbltFacts Tlv TlvFacts State NMap NMapFacts
  Codec CodecFacts Bloom SpecBloom BloomFacts Store StoreFacts SpecStore Producer SpecProducer ProducerFacts Partial SpecPartial PartialFacts PartialSteps
  PartialAnswers Consumer SpecConsumer ConsumerFacts Full FullTrace SpecFull FullFacts FullSafe FullSteps FullRuns FullTimers FullSends FullData FullAnswers SpecWire.
Import ListNotations.
Local Open Scope N_scope.
Local Open Scope list_scope.

Lemma segments_under E k n v buf f d : In d (segment E k (append_version n v) buf f) -> segment_under n d.
Proof.
  intros H. apply segment_In in H as (i & _ & ->). split; [reflexivity|].
  exists (number_comp 54 v), (number_comp 50 (N.of_nat i)), (number_comp 50 (N.of_nat (nseg buf - 1))).
  split; [cbn [d_name seg_data]; unfold append_segment, append_version; rewrite <- app_assoc; reflexivity|].
  split; [reflexivity|]. split; [reflexivity|]. split; [apply nni_length|]. split; [apply nni_length|].
  split; [reflexivity|]. split; [reflexivity|]. split; [apply nni_length|]. cbn [d_content seg_data]. apply firstn_le_length.
Qed.
Lemma publish_under (W : data -> Prop) E now i n buf f b : (forall d, In d (pb_store b) -> W d) -> (forall d, segment_under n d -> W d) ->
  (forall d, In d (pb_store (fst (publish E now i n buf f b))) -> W d) /\
  forall l d, snd (publish E now i n buf f b) = Ok l -> In d l -> W d.
Proof.
  unfold publish. intros H Hn. cbn [fst snd]. rewrite insert_segments_eq. split.
  - intros d Hd. cbn [pb_store pb_limit] in Hd. apply fold_insert_In in Hd as [Hd|Hd]; auto. apply Hn. eapply segments_under; eauto.
  - intros l d Hl Hd. apply Hn. eapply segments_under. eapply put_segment_In; eauto.
Qed.
Lemma fire_under (W : data -> Prop) now i b : (forall d, In d (pb_store b) -> W d) -> forall d, In d (pb_store (pub_fire now i b)) -> W d.
Proof.
  intros H d. unfold pub_fire. destruct (nth_error _ i) as [[dl n]|]; auto. destruct (_ <=? _); auto.
  cbn [pb_store]. intros Hd. apply filter_In in Hd. apply H. tauto.
Qed.
Lemma nack_under_data E k f n : nack_under n (nack_data E k f n).
Proof.
  split; [reflexivity|]. split; [reflexivity|]. exists (number_comp 50 0).
  split; [reflexivity|]. split; [repeat split; try apply nni_length|reflexivity].
Qed.
Lemma append_generic C s n t n' : append_ibf C s n t = Ok n' -> exists c, n' = n ++ [c] /\ generic c.
Proof. intros H. apply append_ibf_carries in H as (c & [T _] & ->). exists c. split; auto. Qed.

(** ** The IBF keeps its size *)
Lemma iblt_update_size t pm k t' : iblt_update t pm k = Ok t' -> length t' = length t.
Proof.
  destruct (Nat.eq_dec (Nat.div (length t) 3) 0) as [E|E]; [rewrite iblt_update_zero by exact E; discriminate|].
  unfold iblt_update. intros H. apply obind_ok in H as (t1 & E1 & H). apply obind_ok in H as (t2 & E2 & H).
  assert (forall i u u', (i < 3)%nat -> Nat.div (length u) 3 <> 0%nat -> update_one pm k i u = Ok u' -> length u' = length u) as S.
  { intros i u u' Hi Hu U. apply update_one_ok in U; tauto. }
  pose proof (S 0%nat t t1 ltac:(lia) E E1) as L1. rewrite <- L1 in E.
  pose proof (S 1%nat t1 t2 ltac:(lia) E E2) as L2. rewrite <- L2 in E.
  pose proof (S 2%nat t2 t' ltac:(lia) E H) as L3. congruence.
Qed.
Lemma core_forget_size n k k' : core_forget n k = Ok k' -> length (k_iblt k') = length (k_iblt k).
Proof.
  unfold core_forget. destruct (bm_right n (k_bimap k)) as [h|]; [|intros [= <-]; reflexivity].
  intros H. apply obind_ok in H as (t & E & H). injection H as <-. apply iblt_update_size in E. exact E.
Qed.
Lemma core_update_size p v k k' : core_update p v k = Ok k' -> length (k_iblt k') = length (k_iblt k).
Proof.
  unfold core_update. destruct (nm_find p (k_prefixes k)) as [old|]; [|intros [= <-]; reflexivity].
  destruct (v <=? old); [intros [= <-]; reflexivity|]. intros H. apply obind_ok in H as (k1 & E & H). apply obind_ok in H as (t & Et & H). injection H as <-.
  apply iblt_update_size in Et. cbn [k_iblt]. rewrite Et. destruct (old =? 0); [injection E as <-; reflexivity|]. eapply core_forget_size; eauto.
Qed.
Lemma core_remove_size p k k' : core_remove p k = Ok k' -> length (k_iblt k') = length (k_iblt k).
Proof.
  unfold core_remove. destruct (nm_find p (k_prefixes k)) as [old|]; [|intros [= <-]; reflexivity]. intros H. apply core_forget_size in H. exact H.
Qed.
Lemma core_publish_size p v k r : core_publish p v k = Ok r -> length (k_iblt (fst r)) = length (k_iblt k).
Proof.
  unfold core_publish. destruct (nm_find p (k_prefixes k)) as [old|]; [|intros [= <-]; reflexivity].
  intros H. apply obind_ok in H as (k1 & E & H). injection H as <-. eapply core_update_size; eauto.
Qed.
Lemma core_add_size p k : length (k_iblt (fst (core_add p k))) = length (k_iblt k).
Proof. unfold core_add. destruct (nm_find _ _); reflexivity. Qed.
Lemma crun_size ops : forall k k', crun k ops = Ok k' -> length (k_iblt k') = length (k_iblt k).
Proof.
  induction ops as [|o ops IH]; cbn [crun]; intros k k' H; [injection H as <-; reflexivity|].
  apply obind_ok in H as (k1 & E & H). rewrite (IH _ _ H). destruct o; cbn [cstep] in E.
  - injection E as <-. apply core_add_size.
  - eapply core_remove_size; eauto.
  - eapply core_update_size; eauto.
  - destruct (core_publish p s k) as [r|e|u|] eqn:P; try discriminate. injection E as <-. eapply core_publish_size; eauto.
Qed.

(** ** Partial-sync producers *)
Section Producer.
Variable K : pcfg.
Notation P := (pc_sync K).
(** a component that carries an IBF of the configured size *)
Definition own (c : comp) : Prop := exists t, carries_ibf (pc_codec K) (pc_scheme K) c t /\ length t = n_entries (pc_n K).
Definition PW (d : data) : Prop :=
  exists req c, own c /\
    ((hello_request P req \/ sync_request_name P req) /\ segment_under (req ++ [c]) d \/
     sync_request_name P req /\ nack_under (req ++ [c]) d).
Notation W := PW.
Definition wI (s : pp) : Prop :=
  (forall d, In d (pb_store (pp_pub s)) -> W d) /\ (forall k e, nm_find k (pp_pending s) = Some e -> sync_request_name P k) /\
  length (k_iblt (pp_core s)) = n_entries (pc_n K).
Lemma append_own s n n' : wI s -> append_ibf (pc_codec K) (pc_scheme K) n (k_iblt (pp_core s)) = Ok n' -> exists c, n' = n ++ [c] /\ own c.
Proof. intros (_ & _ & L) H. apply append_ibf_carries in H as (c & T & ->). exists c. split; [reflexivity|]. exists (k_iblt (pp_core s)). auto. Qed.
Definition wire {A} (m : PM A) : Prop := hoare wI W m.
Lemma wi_get {B} (f : pp -> PM B) : (forall s, wI s -> wire (f s)) -> wire (mbind mget f).
Proof. intros Hf s H. rewrite mbind_get. apply Hf; exact H. Qed.
Lemma wi_mod f : (forall s, pp_pending (f s) = pp_pending s /\ pp_pub (f s) = pp_pub s /\
    (length (k_iblt (pp_core s)) = n_entries (pc_n K) -> length (k_iblt (pp_core (f s))) = n_entries (pc_n K))) -> wire (mmod f).
Proof. intros H. apply hoare_mod. intros s (A & B & L). destruct (H s) as (X & Y & Z). split; [rewrite Y; exact A|]. split; [rewrite X; exact B|auto]. Qed.
Lemma wi_lift {A B} (r : outcome A) (f : A -> PM B) : (forall a, r = Ok a -> wire (f a)) -> wire (mbind (mlift r) f).
Proof. intros H s Hs. rewrite mbind_lift. destruct r; try (split; [exact Hs|constructor]). apply H; auto. Qed.
Lemma wi_publish iname n b f : (forall d, segment_under n d -> W d) -> wire (pp_publish K iname n b f).
Proof.
  intros Hn s (A & B & L). unfold pp_publish.
  destruct (publish_under W (pc_env K) (pp_now s) iname n b f (pp_pub s) A Hn) as [X Y].
  destruct (publish _ _ _ _ _ _ _) as [p [l|e|u|]]; cbn [fst snd] in *; (split; [split; [exact X|split; [exact B|exact L]]|]); try constructor.
  cbn [outs fst snd]. apply Forall_forall. intros d Hd. eauto.
Qed.
Lemma wi_nack n : sync_request_name P n -> wire (pp_send_nack K n).
Proof.
  intros Hn. unfold pp_send_nack. apply wi_get. intros s Ws. pose proof Ws as (Hs & _). apply wi_lift. intros dn E. apply (append_own s) in E as (c & -> & Hc); [|exact Ws].
  apply hoare_bind; [|intros _; apply hoare_emit; constructor; [|constructor]].
  - apply hoare_mod. intros s0 (A & B & L). split; [exact Hs|]. split; [exact B|exact L].
  - exists n, c. split; [exact Hc|]. right. split; [exact Hn|]. apply nack_under_data.
Qed.
Lemma wi_satisfy p keys : wire (satisfy K p keys).
Proof.
  induction keys as [|k keys IH]; cbn [satisfy]; [apply hoare_ret|]. apply hoare_bind; [|intros _; exact IH].
  assert (wire (mmod (fun s => set_pending (nm_erase k (pp_pending s)) s))) as Dr.
  { apply hoare_mod. intros s (A & B & L). split; [exact A|]. split; [|exact L]. intros k0 e0 H. cbn [pp_pending set_pending] in H.
    assert (exists e', nm_find k0 (pp_pending s) = Some e') as [e' He'].
    { apply nm_In_keys. apply nm_find_In, nm_erase_In in H. apply (in_map fst) in H. exact H. }
    apply (B _ _ He'). }
  unfold satisfy_one. apply wi_get. intros s Ws. pose proof Ws as (_ & Hs & _). destruct (nm_find k (pp_pending s)) as [e|] eqn:F; [|apply hoare_ret].
  pose proof (Hs _ _ F) as Hk. apply wi_lift. intros d _. cbv zeta. destruct (negb _); [exact Dr|].
  apply wi_lift. intros x _. destruct (_ || _); [|apply hoare_ret]. apply wi_lift. intros dn E. apply (append_own s) in E as (c & -> & Hc); [|exact Ws].
  apply hoare_bind; [|intros _; exact Dr]. apply wi_publish. intros y Hy. exists k, c. auto.
Qed.
Lemma wi_hello iname : wire (on_hello_interest K (P ++ [HELLO]) iname).
Proof.
  unfold on_hello_interest. apply wi_get. intros s Ws. pose proof Ws as (Hs & _). destruct (reply_from_store iname (pp_pub s)) as [d|] eqn:R.
  - apply hoare_emit. constructor; [|constructor]. apply Hs. unfold reply_from_store in R. apply store_find_Some in R. apply R.
  - apply wi_lift. intros [|] _; [|apply hoare_ret]. apply wi_lift. intros dn E. apply (append_own s) in E as (c & -> & Hc); [|exact Ws].
    apply wi_publish. intros y Hy. exists (P ++ [HELLO]), c. split; [exact Hc|]. left. split; [left; reflexivity|exact Hy].
Qed.
Lemma sync_request_named iname rname : is_prefix (P ++ [SYNC]) iname = true -> sync_request (P ++ [SYNC]) iname = Some rname ->
  sync_request_name P rname.
Proof. intros H E. apply (sync_request_iff K iname rname H) in E as (c1 & c2 & c3 & c4 & tail & -> & _). exists c1, c2, c3, c4. reflexivity. Qed.
Lemma wi_sync iname l : is_prefix (P ++ [SYNC]) iname = true -> wire (on_sync_interest K (P ++ [SYNC]) iname l).
Proof.
  intros Hp. unfold on_sync_interest. apply wi_get. intros s Ws. pose proof Ws as (Hs & _). destruct (reply_from_store iname (pp_pub s)) as [d|] eqn:R.
  - apply hoare_emit. constructor; [|constructor]. apply Hs. unfold reply_from_store in R. apply store_find_Some in R. apply R.
  - destruct (sync_request _ iname) as [rname|] eqn:Q; [|apply hoare_ret]. pose proof (sync_request_named _ _ Hp Q) as Hr.
    apply wi_lift. intros [[bf t]|] _; [|apply hoare_ret]. apply wi_lift. intros d _. destruct (negb _); [apply wi_nack; exact Hr|].
    apply wi_lift. intros content _. destruct (_ || _).
    + apply wi_lift. intros dn E. apply (append_own s) in E as (c & -> & Hc); [|exact Ws]. apply wi_publish. intros y Hy. exists rname, c. auto.
    + apply hoare_mod. intros s0 (A & B & L). split; [exact A|]. split; [|exact L]. intros k0 e H. cbn [pp_pending set_pending] in H. unfold add_pending in H.
      destruct (nm_find rname (pp_pending s0)); rewrite nm_find_set in H;
        (destruct (name_eqb k0 rname) eqn:X; [apply name_eqb_eq in X; subst k0; exact Hr|apply (B _ _ H)]).
Qed.
Lemma wi_step e : wire (pp_step K e).
Proof.
  destruct e as [p|p|p q|n l|dt|key|i]; cbn [pp_step].
  - apply wi_mod. intros s. repeat split. intros L. cbn [pp_core set_core]. rewrite core_add_size. exact L.
  - apply wi_get. intros s (_ & _ & L). apply wi_lift. intros k E. apply wi_mod. intros s0. repeat split. intros _.
    cbn [pp_core set_core]. rewrite (core_remove_size _ _ _ E). exact L.
  - unfold pp_publish_name. apply wi_get. intros s (_ & _ & L). apply wi_lift. intros r E.
    apply hoare_bind; [apply wi_mod; intros s0; repeat split; intros _; cbn [pp_core set_core]; rewrite (core_publish_size _ _ _ _ E); exact L|intros _]. destruct (snd r); [apply wi_satisfy|apply hoare_ret].
  - unfold dispatch. destruct (is_prefix (P ++ [HELLO]) n); [apply wi_hello|].
    destruct (is_prefix (P ++ [SYNC]) n) eqn:E; [apply wi_sync; auto|apply hoare_ret].
  - apply wi_mod. auto.
  - apply hoare_mod. intros s (A & B & L). unfold expire. destruct (nm_find key (pp_pending s)) as [x|] eqn:X; [|split; auto].
    destruct (pe_expiry x) as [[dl n]|]; [|split; auto]. destruct (dl <=? pp_now s); [|split; auto]. split; [exact A|]. split; [|exact L].
    intros k e. cbn [pp_pending set_pending]. intros F.
    assert (exists e', nm_find k (nm_set key (mkPentry (pe_bf x) (pe_iblt x) None) (pp_pending s)) = Some e') as [e' He'].
    { apply nm_In_keys. apply nm_find_In, nm_erase_In in F. apply (in_map fst) in F. exact F. }
    rewrite nm_find_set in He'. destruct (name_eqb k key) eqn:Y; [apply name_eqb_eq in Y; subst k; apply (B _ _ X)|apply (B _ _ He')].
  - apply hoare_mod. intros s (A & B & L). split; [|split; [exact B|exact L]]. cbn [pp_pub set_pub]. apply fire_under. exact A.
Qed.
Lemma producer_packets evs : forall s o, pp_run K (pp_new K) evs = Some (s, o) -> wI s /\ Forall W o.
Proof.
  induction evs as [|e evs IH] using rev_ind; intros s o R.
  - injection R as <- <-. split; [split; [intros d []|]|constructor]. split; [intros k x F; discriminate F|]. apply iblt_new_length.
  - pose proof (run_snoc _ _ _ _ _ _ R) as (s1 & o1 & o2 & R1 & Es & Eo & -> & _). destruct (IH _ _ R1) as [A B].
    destruct (wi_step e s1 A) as [X Y]. rewrite Es in X. rewrite Eo in Y. split; [exact X|]. apply Forall_app. auto.
Qed.
End Producer.

(** ** Full-sync nodes *)
Section Node.
Variable K : fcfg.
Notation P := (fc_sync K).
Definition fown (c : comp) : Prop := exists t, carries_ibf (fc_codec K) (fc_scheme K) c t /\ length t = n_entries (fc_n K).
Definition own_interest (n : name) : Prop := exists k, asks K k n /\ length (k_iblt k) = n_entries (fc_n K).
Definition W (d : data) : Prop :=
  (exists n, length n = (length P + 2)%nat /\ segment_under n d) \/ (exists c, fown c /\ nack_under (P ++ [c]) d).
Definition nI (s : fp) : Prop :=
  (forall d, In d (pb_store (f_pub s)) -> W d) /\
  (forall n e, nm_find n (f_pending s) = Some e -> length n = (length P + 2)%nat) /\
  length (k_iblt (f_core s)) = n_entries (fc_n K).
Definition names_rel (s : fp) (o : list fout) (s' : fp) : Prop :=
  nI s -> nI s' /\ (forall d, In (FoData d) o -> W d) /\ forall n t, In (FoInterest n t) o -> own_interest n.
Lemma names_ibf_len n t r : names_ibf K n t r -> length n = (length P + 2)%nat.
Proof.
  intros (L & c & c1 & A & _). rewrite skipn_length in L.
  destruct (le_lt_dec (length P) (length n)); lia.
Qed.
Lemma names_same s o s' : f_pub s' = f_pub s -> f_pending s' = f_pending s -> length (k_iblt (f_core s')) = length (k_iblt (f_core s)) -> (forall d, ~ In (FoData d) o) -> (forall n t, ~ In (FoInterest n t) o) -> names_rel s o s'.
Proof.
  intros A B L C D (X & Y & Z). split; [split; [rewrite A; exact X|split; [rewrite B; exact Y|congruence]]|].
  split; [intros d Hd; destruct (C d Hd)|intros n t Hn; destruct (D n t Hn)].
Qed.
Lemma names_trans s o s1 o1 s2 : names_rel s o s1 -> names_rel s1 o1 s2 -> names_rel s (o ++ o1) s2.
Proof.
  intros A B H. destruct (A H) as (H1 & D1 & I1). destruct (B H1) as (H2 & D2 & I2). split; [exact H2|]. split.
  - intros d Hd. apply in_app_or in Hd as [Hd|Hd]; auto.
  - intros n t Hd. apply in_app_or in Hd as [Hd|Hd]; eauto.
Qed.
Lemma names_publish s n b f : length n = (length P + 2)%nat -> names_rel s
    (map FoData match snd (publish (fc_env K) (f_now s) n n b f (f_pub s)) with Ok l => l | _ => [] end)
    (fset_pub (fst (publish (fc_env K) (f_now s) n n b f (f_pub s))) s).
Proof.
  intros L (X & Y & Z).
  destruct (publish_under W (fc_env K) (f_now s) n n b f (f_pub s) X) as [A B].
  { intros d Hd. left. exists n. auto. }
  split; [split; [exact A|split; [exact Y|exact Z]]|]. split.
  - intros d Hd. apply in_map_iff in Hd as (x & [= ->] & Hx). destruct (snd _) as [l|e|u|]; try contradiction. eauto.
  - intros m t Hd. apply in_map_iff in Hd as (x & H & _). discriminate H.
Qed.
Lemma names_send s : names_rel s (outs (send_sync_interest K s)) (st (send_sync_interest K s)).
Proof.
  rewrite send_eq.
  assert (f_pub (stopped s) = f_pub s /\ f_pending (stopped s) = f_pending s /\ f_core (stopped s) = f_core s) as (Ep & Eq & Ec) by (unfold stopped; destruct (f_fetcher s); auto).
  destruct (f_wait s); [apply names_same; auto|].
  destruct (sync_name K (f_core s)) as [n|e|u|] eqn:Sn; [|apply names_same; cbn [st outs fst snd]; rewrite ?Ec; auto..].
  destruct (_ && _); [apply names_same; cbn [st outs fst snd]; rewrite ?Ec; auto|].
  intros (X & Y & Z). cbn [st outs fst snd]. split; [split; [|split]; unfold sent; cbn; rewrite ?Ep, ?Eq, ?Ec; auto|]. split.
  - intros d [H|[]]. discriminate H.
  - intros m t [[= <- _]|[]]. exists (f_core s). split; [apply sync_name_asks; exact Sn|exact Z].
Qed.
Lemma why_length ok s n l f : nI s -> data_why K ok s n l f -> length n = (length P + 2)%nat.
Proof.
  intros (_ & Y & _) Hw. revert Y. destruct Hw as [? ? ? ? ? ? ? ? H|? ? ? ? ? H|? ? ? ? ? H]; intros Y; [eapply names_ibf_len; eauto..|eauto].
Qed.
Lemma names_data ok s n l f : data_why K ok s n l f -> names_rel s (outs (send_sync_data K n l f s)) (st (send_sync_data K n l f s)).
Proof.
  intros Hw Hs. pose proof (why_length ok s n l f Hs Hw) as Ln. revert Hs.
  match goal with |- nI s -> ?G => change (names_rel s (outs (send_sync_data K n l f s)) (st (send_sync_data K n l f s))) end.
  unfold send_sync_data. rewrite mbind_get. cbv zeta.
  set (m := mlet buf <- mlift (compress (fc_codec K) (fc_cscheme K) (encode_names l));
    fp_publish K n n buf f ;; (if name_eqb (f_outstanding s) n then send_sync_interest K else mret tt)).
  assert (forall s', names_rel s' (outs (m s')) (st (m s'))) as H.
  { intros s'. unfold m. rewrite mbind_lift. destruct (compress _ _ _) as [buf|e|u|] eqn:Co; try (apply names_same; auto; fail).
    unfold mbind. rewrite fp_publish_eq. pose proof (names_publish s' n buf f Ln) as P.
    destruct (publish _ _ _ _ _ _ _) as [q [x|e|u|]]; cbn [fst snd] in P |- *; try exact P.
    pose proof (names_send (fset_pub q s')) as S. destruct (name_eqb _ n).
    - unfold outs, st in *. destruct (send_sync_interest K (fset_pub q s')) as [[a b] c]. simpl in *. eapply names_trans; eauto.
    - unfold outs, st, mret. simpl. rewrite app_nil_r. exact P. }
  destruct (_ && _) eqn:Eo; [|rewrite mbind_ret; apply H; reflexivity].
  apply andb_prop in Eo as [_ Eo]. destruct (f_fetcher s) as [i|] eqn:F; [|discriminate].
  unfold stop_fetcher. rewrite mbind_assoc, !mbind_mod, F. set (s1 := fset_outstanding [] _).
  change (outs (m s1)) with ([] ++ outs (m s1)). eapply names_trans; [|apply H]. apply names_same; auto.
Qed.
Lemma names_closed ok : closed K ok names_rel.
Proof.
  split; intros.
  - apply names_same; auto.
  - eapply names_trans; eauto.
  - apply names_same; auto.
  - apply names_same; auto; try (intros; intros [X|[]]; discriminate X). cbn [f_core fset_core]. rewrite <- (crun_size [o] (f_core s) k); [reflexivity|].
    cbn [crun]. rewrite H0. reflexivity.
  - intros (A & B & L). split; [split; auto|]. split; [|intros m t [X|[]]; discriminate X]. intros x [[= <-]|[]]. apply A.
    unfold reply_from_store in H. apply store_find_Some in H. apply H.
  - intros Hs. destruct H as (s0 & l & Hw & Ec & Ep & Co). apply names_publish; [|exact Hs].
    destruct Hw as [? ? ? ? ? ? ? ? H|? ? ? ? ? H|s0 n e d u H]; try (eapply names_ibf_len; eauto; fail). rewrite <- Ep in H. eapply Hs; eauto.
  - intros (A & B & L). split; [split; [exact A|split; [exact B|exact L]]|]. split; [|intros m t [X|[]]; discriminate X]. intros x [[= <-]|[]]. right.
    apply append_ibf_carries in H as (c & Hc & ->). exists c. split; [exists (k_iblt (f_core s)); auto|]. apply nack_under_data.
  - apply names_send.
  - eapply names_data; eauto.
  - intros (A & B & L). split; [split; [exact A|split; [|exact L]]|split; [intros d []|intros m t []]]. cbn [f_pending fset_pending]. intros m e F.
    assert (exists e', nm_find m (f_pending s) = Some e') as [e' He'].
    { apply nm_In_keys. apply nm_find_In, nm_erase_In in F. apply (in_map fst) in F. exact F. }
    eauto.
  - intros (A & B & L). split; [split; [exact A|split; [|exact L]]|split; [intros d []|intros m y []]]. cbn [f_pending fset_pending]. intros m e F.
    rewrite add_fpending_find in F. destruct (name_eqb m n) eqn:E; [apply name_eqb_eq in E; subst m; eapply names_ibf_len; eauto|eauto].
  - apply start_closed; intros; try (apply names_same; auto; fail). eapply names_trans; eauto.
  - apply names_same; auto.
  - apply names_same; auto.
  - apply names_same; auto.
  - apply arm_closed; intros; try (apply names_same; auto; fail). eapply names_trans; eauto.
  - apply names_same; auto.
  - apply names_same; auto.
  - intros (A & B & L). split; [split; [|split; [exact B|exact L]]|split; [intros d []|intros m y []]]. cbn [f_pub fset_pub]. apply fire_under. exact A.
Qed.
Lemma names_events : closed_events names_rel.
Proof. split; intros; apply names_same; auto; intros; intros [X|[]]; discriminate X. Qed.
Lemma names_step e s : names_rel s (outs (fp_step K e s)) (st (fp_step K e s)).
Proof.
  assert (Forall (fun _ : cop => True) (ev_ops e)) as Ho by (apply Forall_forall; auto).
  destruct e as [a|n l|i buf script|i face|i timeout|dt|t| | |key|i];
    try (apply (tr_step_but K (fun _ => True) names_rel (names_closed _)); auto using names_events; exact I).
  - apply names_same; auto.
  - apply names_same; auto.
  - pose proof (names_closed (fun _ => True)) as C.
    change (tr names_rel s (fp_step K FeDelay)). cbn [fp_step].
    apply (tr_get names_rel). destruct (f_delay s) as [dl|]; [|apply (tr_ret K _ names_rel C)].
    destruct (dl <=? _); [|apply (tr_ret K _ names_rel C)].
    apply (tr_mod K _ names_rel C); [apply names_same; auto|].
    apply (tr_seq K _ names_rel C); [apply (tr_process K _ names_rel C); auto|intros; apply (tr_schedule K _ names_rel C)].
Qed.
Lemma node_packets sys evs : forall s o, reaches K sys evs s o ->
  nI s /\ (forall d, In (FoData d) o -> W d) /\ forall n t, In (FoInterest n t) o -> own_interest n.
Proof.
  induction evs as [|e evs IH] using rev_ind; intros s o R.
  - destruct R as [_ R]. apply start_inv in R as (s0 & o0 & o1 & E & R & ->). injection R as <- <-. rewrite app_nil_r.
    unfold fp_init in E. pose proof (names_send (fp_blank K sys)) as N. rewrite E in N. cbn [st outs fst snd] in N. apply N.
    split; [intros d []|]. split; [intros n x F; discriminate F|]. apply iblt_new_length.
  - pose proof R as R'. apply reaches_inv in R' as (s1 & o1 & R1 & _ & -> & -> & _). destruct (IH _ _ R1) as (A & B & C).
    destruct (names_step e s1 A) as (A' & B' & C'). split; [exact A'|]. split.
    + intros d Hd. apply in_app_or in Hd as [Hd|Hd]; auto.
    + intros n t Hd. apply in_app_or in Hd as [Hd|Hd]; eauto.
Qed.
Lemma under_prefix sys evs s o : reaches K sys evs s o ->
  aI (fun n => is_prefix P n = true) s /\ Forall (aP K (fun n => is_prefix P n = true)) o.
Proof.
  revert s o. induction evs as [|e evs IH] using rev_ind; intros s o R.
  - apply reaches_nil in R as (n & _ & -> & ->). split; [split; intros k x H; discriminate|]. constructor; [intros d H; discriminate|constructor].
  - apply reaches_inv in R as (s1 & o1 & R1 & _ & -> & -> & _). destruct (IH s1 o1 R1) as [A B].
    assert (ah K (fun n => is_prefix P n = true) (fp_step K e)) as H.
    { destruct e as [a|n l|i buf script|i face|i timeout|dt|t| | |key|i]; try (apply ah_step; intros; discriminate).
      destruct (is_prefix P n) eqn:E; [apply ah_step; intros n' l' [= <- <-]; exact E|]. cbn [fp_step]. rewrite E. apply hoare_ret. }
    destruct (H s1 A) as [I2 P2]. split; [exact I2|]. apply Forall_app. auto.
Qed.
Lemma node_wire sys evs s o d : reaches K sys evs s o -> In (FoData d) o -> node_packet P d.
Proof.
  intros R Hd. destruct (node_packets sys evs s o R) as (_ & N & _). destruct (N d Hd) as [(n & L & T & v & i & z & En & Hr)|(c & (t & [G _] & _) & H)]; [left|right; exists c; split; [exact G|exact H]].
  destruct (under_prefix sys evs s o R) as [_ U]. rewrite Forall_forall in U. destruct (U _ Hd d eq_refl) as [[X _]|(m & Hm & Hp)]; [congruence|].
  apply is_prefix_iff in Hm as (r & ->). apply is_prefix_iff in Hp as (q & Hp). unfold full_name in Hp. rewrite En, <- !app_assoc in Hp.
  assert (firstn (length P) n = P) as F.
  { pose proof (f_equal (firstn (length P)) Hp) as G. rewrite firstn_app in G. replace (length P - length n)%nat with 0%nat in G by lia.
    rewrite firstn_O, app_nil_r in G. rewrite G, firstn_app, Nat.sub_diag, firstn_O, app_nil_r. apply firstn_all. }
  assert (n = P ++ skipn (length P) n) as En2 by (rewrite <- F at 1; symmetry; apply firstn_skipn).
  rewrite En2 in En. rewrite En2, app_length in L.
  destruct (skipn (length P) n) as [|c1 [|c2 [|]]]; cbn [length] in L; try lia. exists c1, c2. split; [exact T|]. exists v, i, z. auto.
Qed.
End Node.

(** ** Consumers *)
Section Consumer.
Variable K : ccfg.
Variable B : nat.
(** the filter keeps its size [B] *)
Definition kI (s : cs) : Prop := (length (c_iblt s) <= 1)%nat /\ length (b_tab (c_bloom s)) = B.
Definition asked_by (n : name) (sync : bool) : Prop :=
  if sync then exists c1 c2 c3 c4 v1 v2, n = cc_sync K ++ [SYNC; c1; c2; c3; c4] /\
    numbered 8 v1 c1 /\ numbered 8 v2 c2 /\ generic c3 /\ length (cval c3) = B
  else n = cc_sync K ++ [HELLO].
Definition kP (x : cout) : Prop :=
  forall k n, x = CoInterest k n -> asked_by n match k with KSync => true | KHello => false end.
Notation ko := (hoare kI kP).
Lemma ko_mod f : (forall s, c_bloom (f s) = c_bloom s /\ (c_iblt (f s) = c_iblt s \/ exists n, c_iblt (f s) = last_comp n)) -> ko (mmod f).
Proof.
  intros H. apply hoare_mod. intros s Hs. unfold kI in *. destruct (H s) as [-> [->|[n ->]]]; [exact Hs|].
  split; [|apply Hs]. unfold last_comp. rewrite skipn_length. lia.
Qed.
Lemma ko_get {X} (f : cs -> CM X) : (forall s, ko (f s)) -> ko (mbind mget f).
Proof. intros Hf s H. rewrite mbind_get. apply Hf. exact H. Qed.
Lemma ko_keep {X} (f : cs -> CM X) : (forall s, length (b_tab (c_bloom s)) = B -> ko (f s)) -> ko (mbind mget f).
Proof. intros Hf s H. rewrite mbind_get. apply Hf; apply H. Qed.
Lemma ko_lift {X Y} (r : outcome X) (f : X -> CM Y) : (forall a, r = Ok a -> ko (f a)) -> ko (mbind (mlift r) f).
Proof. intros H s Hs. rewrite mbind_lift. destruct r; try (split; [exact Hs|constructor]). apply H; auto. Qed.
Lemma ko_bloom b : length (b_tab b) = B -> ko (mmod (cset_bloom b)).
Proof. intros H. apply hoare_mod. intros s [X _]. split; auto. Qed.
Lemma ko_emit x : (forall k n, x <> CoInterest k n) -> ko (memit [x]).
Proof. intros H. apply hoare_emit. constructor; [|constructor]. intros k n E. destruct (H k n E). Qed.
Lemma ko_hello : ko (send_hello K).
Proof.
  intros s H. rewrite send_hello_eq. cbn [st outs fst snd]. split; [unfold kI in *; destruct (c_hello s); exact H|].
  constructor; [|constructor]. intros k n [= <- <-]. reflexivity.
Qed.
Lemma ko_sync : ko (send_sync K).
Proof.
  intros s H. rewrite send_sync_eq. destruct (c_iblt s) as [|c r] eqn:E; [split; [exact H|constructor]|].
  destruct (append_bloom _ _) as [n1|e|u|] eqn:A; try (split; [exact H|constructor]).
  cbn [st outs fst snd]. split; [unfold kI in *; destruct (c_sync s); exact H|]. constructor; [|constructor].
  intros k n [= <- <-]. destruct H as [H HB]. rewrite E in H. destruct r; [|cbn [length] in H; lia].
  unfold append_bloom in A. apply obind_ok in A as (x & _ & A). injection A as <-.
  exists (number_comp 8 (b_count (c_bloom s))), (number_comp 8 x), (Tlv.mkComp 8 (b_tab (c_bloom s))), c.
  eexists _, _. split; [unfold append_bytes, append_number, sync_prefix; rewrite <- !app_assoc; reflexivity|].
  repeat split; try apply nni_length. exact HB.
Qed.
Lemma ko_call a : ko (call K a).
Proof.
  destruct a as [p v cb|p| | |]; cbn [call]; [..|apply ko_hello|apply ko_sync|].
  - apply hoare_bind; [|intros; apply ko_emit; discriminate]. unfold add_sub. apply ko_keep. intros s Hs. destruct (nm_find _ _); [apply hoare_ret|].
    apply hoare_bind; [apply ko_mod; auto|intros _]. apply ko_lift. intros b Hb. apply hoare_bind; [apply ko_bloom|intros _].
    { rewrite <- Hs. apply (bloom_run_same [BIns p]). cbn [bloom_run]. rewrite Hb. reflexivity. }
    apply hoare_bind; [|intros _; apply hoare_ret]. destruct (_ && _); [apply ko_emit; discriminate|apply hoare_ret].
  - apply hoare_bind; [|intros; apply ko_emit; discriminate]. unfold remove_sub. apply ko_keep. intros s Hs. destruct (is_subscribed _ _); [|apply hoare_ret].
    apply hoare_bind; [apply ko_mod; auto|intros _]. apply ko_lift. intros b Hb. apply hoare_bind; [apply ko_bloom|intros _; apply hoare_ret].
    rewrite insert_all_run in Hb. apply bloom_run_same in Hb as (_ & _ & _ & _ & ->). cbn [b_tab bloom_clear]. rewrite repeat_length. exact Hs.
  - apply ko_mod. intros s. split; [|left]; destruct s as [? ? ? ? ? ? ? ? [h|] [y|] ? ? ? ?]; reflexivity.
Qed.
Lemma ko_calls l : ko (calls K l).
Proof. induction l as [|a l IH]; cbn [calls]; [apply hoare_ret|]. apply hoare_bind; [apply ko_call|intros _; exact IH]. Qed.
Lemma ko_step e : ko (c_step K e).
Proof.
  destruct e as [a|i d|i buf sc1 sc2|i to|dt|i]; cbn [c_step].
  - apply ko_call.
  - apply ko_get. intros s. destruct (cfetch i (c_live s)) as [[[] n]|]; [..|apply hoare_ret].
    + destruct (d_final d); [apply ko_mod; auto|apply hoare_ret].
    + apply hoare_bind; [destruct (d_final d); [apply ko_mod; auto|apply hoare_ret]|intros _]. apply ko_get. intros s1.
      destruct (is_nack _); [apply ko_hello|apply hoare_ret].
  - apply ko_get. intros s. destruct (cfetch i (c_live s)) as [[[] n]|]; [..|apply hoare_ret].
    + apply hoare_bind; [apply ko_mod; auto|intros _]. unfold on_hello_data. apply hoare_bind; [apply ko_mod; intros; split; [reflexivity|right; eexists; reflexivity]|intros _].
      apply hoare_bind; [apply hoare_lift|intros names]. apply hoare_bind.
      * intros x Hx. destruct (take_hello_inv names [] x) as (-> & (m & -> & _) & _). split; [exact Hx|constructor].
      * intros x. apply hoare_bind; [apply ko_emit; discriminate|intros _]. apply hoare_bind; [apply ko_calls|intros _].
        destruct (fst x); [apply hoare_ret|]. apply hoare_bind; [apply ko_emit; discriminate|intros _]. apply ko_calls.
    + apply hoare_bind; [apply ko_mod; auto|intros _]. destruct (is_nack _); [apply ko_mod; auto|].
      unfold on_csync_data. apply hoare_bind; [apply ko_mod; intros; split; [reflexivity|right; eexists; reflexivity]|intros _]. apply hoare_bind; [apply hoare_lift|intros names]. apply hoare_bind.
      * intros x Hx. destruct (take_sync_inv names x) as (-> & (m & -> & _) & _). split; [exact Hx|constructor].
      * intros l. apply hoare_bind; [|intros _; apply ko_sync]. destruct l; [apply hoare_ret|].
        apply hoare_bind; [apply ko_emit; discriminate|intros _]. apply ko_calls.
  - apply ko_get. intros s. destruct (cfetch i (c_live s)) as [[[] n]|]; [..|apply hoare_ret].
    + apply hoare_bind; [apply ko_mod; auto|intros _; apply ko_mod; auto].
    + apply hoare_bind; [apply ko_mod; auto|intros _]. destruct to; [apply ko_sync|apply ko_mod; auto].
  - apply ko_mod; auto.
  - apply ko_get. intros s. destruct (nth_error _ _) as [[dl k]|]; [|apply hoare_ret]. destruct (dl <=? _); [|apply hoare_ret].
    apply hoare_bind; [apply ko_mod; auto|intros _]. destruct k; [apply ko_hello|apply ko_sync].
Qed.
End Consumer.
Lemma consumer_interests K evs : forall s o, creaches K evs s o ->
  exists b0, bloom_new (cc_libm K) (cc_count K) (cc_rate K) = Ok b0 /\ kI (length (b_tab b0)) s /\ Forall (kP K (length (b_tab b0))) o.
Proof.
  unfold creaches, c_start, c_new. intros s o R. destruct (bloom_new _ _ _) as [b0|e|u|] eqn:N; [|discriminate..].
  exists b0. split; [reflexivity|]. cbn [obind] in R. revert s o R.
  induction evs as [|e evs IH] using rev_ind; intros s o R.
  - injection R as <- <-. split; [split; cbn; auto|constructor].
  - pose proof (run_snoc _ _ _ _ _ _ R) as (s1 & o1 & o2 & R1 & Es & Eo & -> & _). destruct (IH _ _ R1) as [A B].
    destruct (ko_step K (length (b_tab b0)) e s1 A) as [X Y]. rewrite Es in X. rewrite Eo in Y. split; [exact X|]. apply Forall_app. auto.
Qed.
