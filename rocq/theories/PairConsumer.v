(** Facts about a consumer talking to a partial producer. *)
From Coq Require Import List NArith ZArith Bool Arith Lia Sorted.
From Verif Require Import Base BaseFacts Mon MonFacts Iblt SpecIblt Tlv TlvFacts State StateFacts NMap NMapFacts Codec
  CodecFacts Bloom SpecBloom BloomFacts Properties_Bloom Store Producer SpecProducer ProducerFacts Partial SpecPartial
  PartialFacts PartialSteps Full SpecFull FullData FullRuns Consumer SpecConsumer ConsumerFacts SpecGroup SpecPair.
Import ListNotations.
Local Open Scope N_scope.

Lemma ends_fine r : ends r -> fine r.
Proof. intros [->|[e ->]]; exact I. Qed.
Lemma In_cfetch l i x : NoDup (map fst l) -> In (i, x) l -> cfetch i l = Some x.
Proof.
  induction l as [|[j y] l IH]; simpl; [intros _ []|]. inversion 1 as [|a b H1 H2]; subst. intros [E|E].
  - injection E as -> ->. rewrite Nat.eqb_refl. reflexivity.
  - destruct (Nat.eqb_spec i j) as [->|_]; auto. destruct H1. apply in_map_iff. exists (j, x). auto.
Qed.
Definition sub (c : cs) (p : name) : Prop := nm_mem p (c_subs c) = true.
(** nothing is said about hello data *)
Definition no_hello (o : list cout) : Prop := forall av, ~ In (CoHello av) o.
Lemma no_hello_app a b : no_hello a -> no_hello b -> no_hello (a ++ b).
Proof. intros A B av H. apply in_app_or in H as [H|H]; [apply (A av H)|apply (B av H)]. Qed.
Lemma no_hello_nil : no_hello []. Proof. intros av []. Qed.
Lemma no_hello_one x : (forall av, x <> CoHello av) -> no_hello [x].
Proof. intros H av [E|[]]. apply (H av E). Qed.

(** fetchers after a start *)
Lemma live_start_sync n s i m : linv s ->
  In (i, (KSync, m)) (c_live (cstart KSync n (cstop (c_sync s) s))) -> m = n.
Proof.
  intros L H. pose proof (li_sync _ (linv_start_sync n s L) _ _ H) as E.
  cbn [cstart c_sync cset_sync cset_started cset_live c_live] in *. injection E as <-.
  destruct H as [H|H]; [congruence|]. exfalso.
  pose proof (linv_stop (c_sync s) s L) as L'. pose proof (live_lt _ _ _ _ L' H). lia.
Qed.
Lemma live_start_other k n s i k' m p : k' <> k ->
  In (i, (k', m)) (c_live (cstart k n (cstop p s))) -> In (i, (k', m)) (c_live s).
Proof.
  intros Hk H. assert (In (i, (k', m)) (c_live (cstop p s))) as H'.
  { destruct k; cbn [cstart c_live cset_hello cset_sync cset_started cset_live] in H; destruct H as [H|H]; congruence. }
  destruct p as [j|]; [|exact H']. cbn in H'. apply without_In in H' as [H' _]. exact H'.
Qed.
Lemma live_start_hello n s i m : linv s ->
  In (i, (KHello, m)) (c_live (cstart KHello n (cstop (c_hello s) s))) -> m = n.
Proof.
  intros L H. pose proof (li_hello _ (linv_start_hello n s L) _ _ H) as E.
  cbn [cstart c_hello cset_hello cset_started cset_live c_live] in *. injection E as <-.
  destruct H as [H|H]; [congruence|]. exfalso.
  pose proof (linv_stop (c_hello s) s L) as L'. pose proof (live_lt _ _ _ _ L' H). lia.
Qed.
(** sending a hello interest does not disturb the outstanding sync interest *)
Lemma live_hello_keeps n s i m : linv s -> In (i, (KSync, m)) (c_live s) ->
  In (i, (KSync, m)) (c_live (cstart KHello n (cstop (c_hello s) s))).
Proof.
  intros L H. cbn [cstart c_live cset_hello cset_started cset_live]. right. destruct (c_hello s) as [j|] eqn:E; [|exact H].
  cbn. apply without_In. split; auto. cbn [fst]. intros ->. apply (li_ne _ L j E). apply (li_sync _ L _ _ H).
Qed.
Lemma live_stop_all s : linv s -> c_live (st (stop_all s)) = [].
Proof.
  intros L. unfold stop_all, mmod, st. cbn [fst snd].
  set (s0 := cset_timers [] s). assert (linv s0) as L0 by (eapply linv_same; [..|exact L]; reflexivity).
  destruct (c_live (cset_hello None (cstop (c_hello (cset_sync None (cstop (c_sync s0) s0))) (cset_sync None (cstop (c_sync s0) s0)))))
    as [|[i [k n]] l] eqn:E; [reflexivity|exfalso].
  assert (In (i, (k, n)) ((i, (k, n)) :: l)) as H by (left; reflexivity). rewrite <- E in H. clear E.
  cbn [cset_hello c_live] in H.
  assert (c_hello (cset_sync None (cstop (c_sync s0) s0)) = c_hello s0) as Eh by (destruct (c_sync s0); reflexivity).
  rewrite Eh in H.
  assert (In (i, (k, n)) (c_live (cstop (c_sync s0) s0)) /\ (forall j, c_hello s0 = Some j -> i <> j)) as [H1 H2].
  { destruct (c_hello s0) as [j|]; [|split; [exact H|discriminate]]. cbn [cstop cset_live c_live cset_sync] in H.
    apply without_In in H as [H Hn]. split; [exact H|]. intros j' [= <-]. exact Hn. }
  assert (In (i, (k, n)) (c_live s0) /\ (forall j, c_sync s0 = Some j -> i <> j)) as [H3 H4].
  { destruct (c_sync s0) as [j|]; [|split; [exact H1|discriminate]]. cbn in H1. apply without_In in H1 as [H1 Hn].
    split; [exact H1|]. intros j' [= <-]. exact Hn. }
  destruct k; [apply (H2 i (li_hello _ L0 _ _ H3)); reflexivity|apply (H4 i (li_sync _ L0 _ _ H3)); reflexivity].
Qed.

(** ** Segments *)
Record segmented (Kc : ccfg) (i : nat) (d : data) (c c1 : cs) (o1 : list cout) : Prop := mkSegmented {
  sg_data : same_data c c1;
  sg_iblt : c_iblt c1 = c_iblt c;
  sg_linv : linv c1;
  sg_sync : forall j n, In (j, (KSync, n)) (c_live c1) <-> In (j, (KSync, n)) (c_live c);
  sg_hello : forall j n, In (j, (KHello, n)) (c_live c1) -> In (j, (KHello, n)) (c_live c) \/ n = hello_prefix Kc;
  sg_hname : forall n x, cfetch i (c_live c) = Some (KHello, n) -> d_final d = Some x ->
    c_hname c1 = name_prefix_back (d_name d) 2 /\ c_live c1 = c_live c;
  sg_sname : forall n x, cfetch i (c_live c) = Some (KSync, n) -> d_final d = Some x ->
    c_sname c1 = name_prefix_back (d_name d) 2 /\ c_type c1 = d_type d /\ cfetch i (c_live c1) = Some (KSync, n);
  sg_quiet : no_hello o1 }.
Lemma segment_result Kc i d c c1 o1 r1 : linv c -> c_step Kc (CeSegment i d) c = (c1, o1, r1) ->
  r1 = Ok tt /\ segmented Kc i d c c1 o1.
Proof.
  intros L E. cbn [c_step] in E. rewrite mbind_get in E. destruct (cfetch i (c_live c)) as [[[] n]|] eqn:F.
  - destruct (d_final d) as [x|] eqn:Fi; injection E as <- <- <-; (split; [reflexivity|]); constructor; try (apply same_refl);
      try (repeat split; fail); auto; try congruence; try (apply no_hello_nil).
    + eapply linv_same; [..|exact L]; reflexivity.
    + reflexivity.
    + reflexivity.
  - assert (exists a, (if is_nack (c_type a) then send_hello Kc else mret tt) a = (c1, o1, r1) /\
      c_prefixes a = c_prefixes c /\ c_subs a = c_subs c /\ c_bloom a = c_bloom c /\ c_iblt a = c_iblt c /\
      c_live a = c_live c /\ c_hello a = c_hello c /\ c_sync a = c_sync c /\ c_started a = c_started c /\
      (forall x, d_final d = Some x -> c_sname a = name_prefix_back (d_name d) 2 /\ c_type a = d_type d)) as
      (a & Ea & A1 & A2 & A3 & A4 & A5 & A6 & A7 & A8 & A9).
    { destruct (d_final d) as [x|]; rewrite ?mbind_mod, ?mbind_ret, mbind_get in E.
      - eexists. split; [exact E|]. repeat (split; [reflexivity|]). intros; split; reflexivity.
      - exists c. split; [exact E|]. repeat (split; [reflexivity|]). discriminate. }
    clear E. assert (linv a) as La by (eapply linv_same; [..|exact L]; assumption).
    destruct (is_nack (c_type a)) eqn:Na.
    + rewrite send_hello_eq in Ea.
      assert (c1 = cstart KHello (hello_prefix Kc) (cstop (c_hello a) a) /\ o1 = [CoInterest KHello (hello_prefix Kc)] /\
        r1 = Ok tt) as (-> & -> & ->) by (split; [congruence|split; congruence]). clear Ea. split; [reflexivity|].
      assert (linv (cstart KHello (hello_prefix Kc) (cstop (c_hello a) a))) as L1 by (apply linv_start_hello; exact La).
      assert (forall j n, In (j, (KSync, n)) (c_live c) -> In (j, (KSync, n)) (c_live (cstart KHello (hello_prefix Kc) (cstop (c_hello a) a)))) as Ks.
      { intros j m H. rewrite <- A5 in H. apply live_hello_keeps; auto. }
      constructor.
      * apply same_trans with a; [repeat split; auto|exact (same_start KHello (hello_prefix Kc) (c_hello a) a)].
      * destruct (c_hello a); cbn; auto.
      * exact L1.
      * intros j m. split; [|apply Ks]. intros H. rewrite <- A5. eapply live_start_other; [|exact H]. discriminate.
      * intros j m H. right. exact (live_start_hello _ _ _ _ La H).
      * congruence.
      * intros m x Hm Hx. destruct (A9 x Hx) as [B1 B2]. split; [rewrite <- B1; destruct (c_hello a); reflexivity|].
        split; [rewrite <- B2; destruct (c_hello a); reflexivity|]. rewrite F in Hm. injection Hm as ->.
        apply In_cfetch; [apply (li_once _ L1)|]. apply Ks. apply cfetch_In. exact F.
      * apply no_hello_one. discriminate.
    + injection Ea as <- <- <-. split; [reflexivity|]. constructor.
      * split; [exact A1|]. split; [exact A2|exact A3].
      * exact A4.
      * exact La.
      * intros j m. rewrite A5. reflexivity.
      * intros j m H. left. rewrite <- A5. exact H.
      * congruence.
      * intros m x Hm Hx. destruct (A9 x Hx) as [B1 B2]. split; [exact B1|]. split; [exact B2|]. rewrite A5. exact Hm.
      * apply no_hello_nil.
  - injection E as <- <- <-. split; [reflexivity|]. constructor; auto; try congruence; try apply same_refl; try apply no_hello_nil. reflexivity.
Qed.

(** ** Calls *)
Lemma add_hello K p v cb s : no_hello (outs (add_sub K p v cb s)).
Proof.
  unfold add_sub. rewrite mbind_get. destruct (nm_find p (c_prefixes s)); [apply no_hello_nil|].
  rewrite mbind_mod, mbind_lift. destruct (bloom_insert (c_bloom s) p); try apply no_hello_nil.
  rewrite mbind_mod. destruct (cb && negb (v =? 0)); [apply no_hello_one; discriminate|apply no_hello_nil].
Qed.
Lemma remove_hello p s : no_hello (outs (remove_sub p s)).
Proof.
  unfold remove_sub. rewrite mbind_get. destruct (is_subscribed p s); [|apply no_hello_nil].
  rewrite mbind_mod, mbind_lift. destruct (insert_all _ _); try apply no_hello_nil.
Qed.
Lemma send_sync_hello K s : no_hello (outs (send_sync K s)).
Proof.
  rewrite send_sync_eq. destruct (c_iblt s); [apply no_hello_nil|]. destruct (append_bloom _ _); try apply no_hello_nil.
  apply no_hello_one. discriminate.
Qed.
Lemma bind_hello {A B} (m : CM A) (f : A -> CM B) s : no_hello (outs (m s)) -> (forall a s, no_hello (outs (f a s))) ->
  no_hello (outs (mbind m f s)).
Proof.
  intros H1 H2. unfold mbind. destruct (m s) as [[s1 o1] [a|e|u|]]; cbn [outs fst snd] in *; auto.
  specialize (H2 a s1). destruct (f a s1) as [[s2 o2] r2]. cbn [outs fst snd] in *. apply no_hello_app; auto.
Qed.
Lemma call_hello K a s : no_hello (outs (call K a s)).
Proof.
  destruct a as [p v cb|p| | |]; cbn [call].
  - apply bind_hello; [apply add_hello|]. intros b s1. apply no_hello_one. discriminate.
  - apply bind_hello; [apply remove_hello|]. intros b s1. apply no_hello_one. discriminate.
  - apply no_hello_one. discriminate.
  - apply send_sync_hello.
  - apply no_hello_nil.
Qed.
Lemma calls_hello K l : forall s, no_hello (outs (calls K l s)).
Proof.
  induction l as [|a l IH]; intros s; cbn [calls]; [apply no_hello_nil|]. apply bind_hello; [apply call_hello|intros _; apply IH].
Qed.
Lemma did_sub_keeps A s o s' p : did A s o s' -> ~ In (CUnsub p) A -> sub s p -> sub s' p.
Proof.
  unfold sub. induction 1 as [s o s' (_ & X & _) Y|s q v cb b s' X Y Z P Q R|s q b s' X Y Z P Q R|s o1 s1 o2 s2 D1 I1 D2 I2]; intros N H.
  - rewrite X. exact H.
  - rewrite Q, nm_mem_emplace, H. apply orb_true_r.
  - rewrite Q. unfold nm_mem in *. destruct (name_eqb p q) eqn:E.
    + apply name_eqb_eq in E. subst. contradiction.
    + rewrite nm_find_erase_other; [exact H|]. apply name_eqb_neq. exact E.
  - auto.
Qed.

(** ** Hello data *)
Lemma take_hello_all names : forall av s l p x v, res (take_hello names av s) = Ok l -> In (p ++ [x]) names -> to_number x = Ok v ->
  sub s p -> v <= seq0 (known (st (take_hello names av s)) p).
Proof.
  induction names as [|c names IH]; intros av s l p x v; [intros _ []|]. cbn [take_hello].
  rewrite mbind_lift. destruct (name_get_minus c 1) as [last|e|u|] eqn:Eg; try discriminate.
  rewrite mbind_lift. destruct (to_number last) as [w|e|u|] eqn:Ev; try discriminate.
  cbv zeta. rewrite mbind_get. apply name_split in Eg. set (q := name_prefix_back c 1) in *.
  set (cur := match nm_find q (c_prefixes s) with Some x => x | None => 0 end).
  destruct (is_subscribed q s && (cur <? w)) eqn:Hc.
  - rewrite mbind_mod. set (s1 := cset_prefixes (nm_set q w (c_prefixes s)) s).
    destruct (take_hello names (nm_emplace q w av) s1) as [[s2 o2] r2] eqn:T. rewrite (mbind_run _ _ _ _ _ _ T).
    destruct (take_hello_inv names (nm_emplace q w av) s1) as (_ & _ & _ & l2 & C & _). rewrite T in C.
    destruct r2 as [l3|e|u|]; try discriminate. intros _. cbn [mret st res outs fst snd] in *.
    intros [E|Hin] Hx Hs.
    + rewrite Eg in E. apply app_inj_tail in E as [<- <-]. rewrite Ev in Hx. injection Hx as <-.
      assert (known s1 q = Some w) as Q by (unfold s1; rewrite known_set, name_eqb_refl; reflexivity).
      pose proof (report_chain_mono _ _ _ q C) as M. rewrite Q in M. exact M.
    + pose proof (IH (nm_emplace q w av) s1 l3 p x v) as G. rewrite T in G. apply G; auto.
  - intros E. intros [Ec|Hin] Hx Hs; [|eapply IH; eauto].
    rewrite Eg in Ec. apply app_inj_tail in Ec as [<- <-]. rewrite Ev in Hx. injection Hx as <-.
    destruct (take_hello_inv names (nm_emplace q w av) s) as (_ & _ & _ & l2 & C & _).
    unfold is_subscribed in Hc. unfold sub in Hs. rewrite Hs in Hc. cbn [andb] in Hc. apply N.ltb_ge in Hc.
    assert (cur = seq0 (known s q)) as Ecur by reflexivity.
    pose proof (report_chain_mono _ _ _ q C) as M. lia.
Qed.
Lemma take_hello_av names : forall av s l p v, res (take_hello names av s) = Ok l -> nm_find p (snd l) = Some v ->
  nm_find p av = Some v \/ brings names p v.
Proof.
  induction names as [|c names IH]; intros av s l p v; cbn [take_hello].
  - intros [= <-]. auto.
  - rewrite mbind_lift. destruct (name_get_minus c 1) as [last|e|u|] eqn:Eg; try discriminate.
    rewrite mbind_lift. destruct (to_number last) as [w|e|u|] eqn:Ev; try discriminate.
    cbv zeta. rewrite mbind_get. apply name_split in Eg. set (q := name_prefix_back c 1) in *.
    assert (forall s1 l1, res (take_hello names (nm_emplace q w av) s1) = Ok l1 -> nm_find p (snd l1) = Some v ->
      nm_find p av = Some v \/ brings (c :: names) p v) as G.
    { intros s1 l1 E1 E2. destruct (IH _ _ _ _ _ E1 E2) as [H|H]; [|right; apply brings_cons; exact H].
      unfold nm_emplace in H. destruct (nm_find q av) eqn:Q; [auto|]. rewrite nm_find_set in H.
      destruct (name_eqb p q) eqn:E; [|auto]. apply name_eqb_eq in E. injection H as <-. right. exists last. rewrite E. split; [left; exact Eg|exact Ev]. }
    destruct (is_subscribed q s && _).
    + rewrite mbind_mod. set (s1 := cset_prefixes (nm_set q w (c_prefixes s)) s).
      destruct (take_hello names (nm_emplace q w av) s1) as [[s2 o2] r2] eqn:T. rewrite (mbind_run _ _ _ _ _ _ T).
      destruct r2 as [l3|e|u|]; try discriminate. cbn [mret res fst snd]. intros [= <-]. cbn [snd].
      apply (G s1 l3). rewrite T. reflexivity.
    + apply G.
Qed.

(** ** The invariant of the consumer *)
Section Ci.
Variables (Kc : ccfg) (b0 : bloom) (S : name -> Prop) (W : name -> N) (carr : comp -> core -> Prop).
Hypothesis Hrate : rate_ok Kc.
Hypothesis Hnew : bloom_new (cc_libm Kc) (cc_count Kc) (cc_rate Kc) = Ok b0.
Hypothesis Hsize : b_size b0 <> 1.

(** the consumer knows what [k] has for [p], apart from numbers up to [W p] *)
Definition covered (c : cs) (k : core) (p : name) : Prop := seq0 (get_seq p k) <= N.max (seq0 (known c p)) (W p).
Definition iblt_fits (pts ik : core -> Prop) (c : cs) : Prop :=
  c_iblt c = [] \/ exists cc k, ik k /\ pts k /\ c_iblt c = [cc] /\ carr cc k /\ forall p, S p -> sub c p -> covered c k p.
Definition below (now : name -> option N) (p : name) (v : N) : Prop := exists v', now p = Some v' /\ v <= v'.
Definition asks (pts : core -> Prop) (later : list capi) (c : cs) (n : name) : Prop :=
  exists c1 c2 c3 cc k b, n = sync_prefix Kc ++ [c1; c2; c3; cc] /\ (bloom_of_comps (cc_libm Kc) c1 c2 c3 = Ok b /\ bloom_sound b) /\
    carr cc k /\ pts k /\
    forall p, sub c p -> (bloom_contains b p = Ok true /\ (S p -> covered c k p)) \/ In CSendSync later \/ In CStop later.
Record CI (pts : core -> Prop) (now : name -> option N) (ik : core -> Prop) (later : list capi) (c : cs) : Prop := mkCI {
  ci_d : dinv b0 c;
  ci_l : linv c;
  ci_iblt : iblt_fits pts ik c;
  ci_known : forall p v, known c p = Some v -> below now p v;
  ci_sync : forall i n, In (i, (KSync, n)) (c_live c) -> asks pts later c n;
  ci_hello : forall i n, In (i, (KHello, n)) (c_live c) -> n = hello_prefix Kc }.

Lemma ci_update pts now ik later c (pts' : core -> Prop) now' ik' later' c' : CI pts now ik later c ->
  dinv b0 c' -> linv c' -> c_subs c' = c_subs c -> (forall p, seq0 (known c p) <= seq0 (known c' p)) ->
  (forall k, pts k -> pts' k) ->
  (forall i n, In (i, (KSync, n)) (c_live c') -> In (i, (KSync, n)) (c_live c)) ->
  (forall i n, In (i, (KHello, n)) (c_live c') -> In (i, (KHello, n)) (c_live c) \/ n = hello_prefix Kc) ->
  (forall a, In a later -> In a later') ->
  iblt_fits pts' ik' c' -> (forall p v, known c' p = Some v -> below now' p v) ->
  CI pts' now' ik' later' c'.
Proof.
  intros C D L Es M P Hs Hh La Ib Kn. constructor; auto.
  - intros i n H. apply Hs in H. destruct (ci_sync _ _ _ _ _ C i n H) as (c1 & c2 & c3 & cc & k & b & E & B & Ca & Pt & Z).
    exists c1, c2, c3, cc, k, b. repeat (split; auto). intros p Hp. unfold sub in Hp. rewrite Es in Hp.
    destruct (Z p Hp) as [[Z1 Z2]|[Z1|Z1]]; auto. left. split; auto. intros Sp. specialize (Z2 Sp). specialize (M p).
    unfold covered in *. lia.
  - intros i n H. destruct (Hh i n H) as [H1|H1]; auto. eapply ci_hello; eauto.
Qed.
Lemma iblt_frame pts ik c c' : iblt_fits pts ik c -> c_iblt c' = c_iblt c -> c_subs c' = c_subs c ->
  (forall p, seq0 (known c p) <= seq0 (known c' p)) -> iblt_fits pts ik c'.
Proof.
  intros [H|(cc & k & H1 & H2 & H3 & H4 & H5)] E1 E2 M; [left; congruence|]. right. exists cc, k.
  repeat (split; [congruence|]). intros p Sp Hp. unfold sub in Hp. rewrite E2 in Hp. specialize (H5 p Sp Hp).
  specialize (M p). unfold covered in *. lia.
Qed.
(** nothing the invariant speaks of changes, except that fetchers may go and hello fetchers come *)
Lemma ci_frame pts now ik later c later' c' : CI pts now ik later c -> same_data c c' -> c_iblt c' = c_iblt c -> linv c' ->
  (forall i n, In (i, (KSync, n)) (c_live c') -> In (i, (KSync, n)) (c_live c)) ->
  (forall i n, In (i, (KHello, n)) (c_live c') -> In (i, (KHello, n)) (c_live c) \/ n = hello_prefix Kc) ->
  (forall a, In a later -> In a later') -> CI pts now ik later' c'.
Proof.
  intros C Sd Ei L Hs Hh La. pose proof Sd as (E1 & E2 & E3).
  assert (forall p, known c' p = known c p) as Kn by (intros p; unfold known; rewrite E1; reflexivity).
  apply (ci_update pts now ik later c); auto.
  - eapply dinv_same; [exact Sd|]. apply C.
  - intros p. rewrite Kn. lia.
  - eapply iblt_frame; eauto; [apply C|]. intros p. rewrite Kn. lia.
  - intros p v. rewrite Kn. apply C.
Qed.
Lemma ci_weaken pts now ik later c (pts' : core -> Prop) now' (ik' : core -> Prop) : CI pts now ik later c -> (forall k, pts k -> pts' k) ->
  (forall k, ik k -> ik' k) -> (forall p v, below now p v -> below now' p v) -> CI pts' now' ik' later c.
Proof.
  intros C P I B. apply (ci_update pts now ik later c); auto; try apply C.
  - intros p. lia.
  - destruct (ci_iblt _ _ _ _ _ C) as [H|(cc & k & H1 & H2 & H)]; [left; exact H|]. right. exists cc, k. auto.
  - intros p v H. apply B. apply (ci_known _ _ _ _ _ C). exact H.
Qed.

(** a sync interest *)
Lemma send_asks pts now ik later c n1 : CI pts now ik later c -> append_bloom (sync_prefix Kc) (c_bloom c) = Ok n1 ->
  c_iblt c <> [] -> asks pts [] c (n1 ++ c_iblt c).
Proof.
  intros C E H. destruct (ci_iblt _ _ _ _ _ C) as [H1|(cc & k & _ & Pt & Ei & Ca & Z)]; [contradiction|].
  destruct (di_bloom _ _ (ci_d _ _ _ _ _ C)) as (ops & R & Io). destruct Hrate as (Hc & t & Hr & Ht). pose proof Hnew as Hn. rewrite Hr in Hn.
  destruct (C18_wire _ _ _ _ _ _ _ _ Hc Ht Hn R E) as (c1 & c2 & c3 & -> & _ & b' & B1 & -> & _).
  assert (bloom_sound (c_bloom c)) as Sb.
  { destruct (bloom_new_facts _ _ _ _ Hn) as (_ & _ & _ & X0 & _ & [[X _]|X]); [destruct (Hsize X)|].
    destruct (bloom_run_ok ops b0 [] X X0) as (b3 & R3 & S3 & _). rewrite R in R3. injection R3 as <-. exact S3. }
  exists c1, c2, c3, cc, k, (c_bloom c). rewrite Ei, <- app_assoc. repeat (split; [auto|]). intros p Hp. left. split; auto.
  destruct (C16_no_false_negatives _ _ _ _ ops Hn Hsize) as (b2 & B2 & G & _). rewrite R in B2. injection B2 as <-. apply G. apply Io. exact Hp.
Qed.
Lemma ci_send_sync pts now ik later later' c c' o r : CI pts now ik later c -> send_sync Kc c = (c', o, r) -> fine r ->
  r = Ok tt /\ CI pts now ik later' c'.
Proof.
  intros C E F. rewrite send_sync_eq in E. destruct (c_iblt c) as [|x y] eqn:Ei; [injection E as <- <- <-; destruct F|]. rewrite <- Ei in E.
  destruct (append_bloom (sync_prefix Kc) (c_bloom c)) as [n1|e|u|] eqn:Ea; [| |injection E as <- <- <-; destruct F..].
  2:{ destruct (append_bloom_throw _ _ _ Ea). }
  assert (c' = cstart KSync (n1 ++ c_iblt c) (cstop (c_sync c) c) /\ r = Ok tt) as [-> ->] by (split; congruence). clear E. split; [reflexivity|].
  assert (same_data c (cstart KSync (n1 ++ c_iblt c) (cstop (c_sync c) c))) as Sd by apply same_start.
  assert (forall p, known (cstart KSync (n1 ++ c_iblt c) (cstop (c_sync c) c)) p = known c p) as Kn.
  { intros p. unfold known. destruct Sd as [-> _]. reflexivity. }
  assert (c_iblt (cstart KSync (n1 ++ c_iblt c) (cstop (c_sync c) c)) = c_iblt c) as Ei'
    by (destruct (c_sync c); reflexivity).
  constructor.
  - eapply dinv_same; [exact Sd|]. apply C.
  - apply linv_start_sync, C.
  - eapply iblt_frame; [apply C|exact Ei'|apply Sd|]. intros p. rewrite Kn. lia.
  - intros p v. rewrite Kn. apply C.
  - intros i m H. apply live_start_sync in H; [|apply C]. subst m.
    assert (c_iblt c <> []) as Hne by congruence.
    destruct (send_asks _ _ _ _ _ _ C Ea Hne) as (c1 & c2 & c3 & cc & k & b & E & B & Ca & Pt & Z).
    exists c1, c2, c3, cc, k, b. repeat (split; [auto|]). intros p Hp. unfold sub in Hp. destruct Sd as (_ & Es & _). rewrite Es in Hp.
    destruct (Z p Hp) as [[Z1 Z2]|[[]|[]]]. left. split; auto. intros Sp. specialize (Z2 Sp). unfold covered in *. rewrite Kn. exact Z2.
  - intros i m H. apply live_start_other in H; [|discriminate]. eapply ci_hello; eauto.
Qed.
Lemma ci_send_hello pts now ik later c : CI pts now ik later c ->
  CI pts now ik later (cstart KHello (hello_prefix Kc) (cstop (c_hello c) c)).
Proof.
  intros C. apply (ci_frame pts now ik later c); auto.
  - apply same_start.
  - destruct (c_hello c); reflexivity.
  - apply linv_start_hello, C.
  - intros i n H. eapply live_start_other; [|exact H]. discriminate.
  - intros i n H. right. eapply live_start_hello; [|exact H]. apply C.
Qed.
(** what the application may subscribe to *)
Definition may_sub (now : name -> option N) (ik : core -> Prop) (l : list capi) (c : cs) : Prop :=
  forall p v cb, In (CSub p v cb) l -> below now p v /\
    (S p -> (forall k, ik k -> seq0 (get_seq p k) <= N.max v (W p)) \/ (sub c p /\ ~ In (CUnsub p) l)).
Definition resends_in (c : cs) (later l : list capi) : Prop :=
  forall l1 p v cb l2, l = l1 ++ CSub p v cb :: l2 ->
    In CSendSync (l2 ++ later) \/ In CStop (l2 ++ later) \/ (~ busy c /\ ~ In CSendSync l1).
Lemma ci_call pts now ik later a c c' o r : CI pts now ik (a :: later) c -> may_sub now ik [a] c ->
  (forall p v cb, a = CSub p v cb -> In CSendSync later \/ In CStop later \/ ~ busy c) ->
  call Kc a c = (c', o, r) -> fine r ->
  r = Ok tt /\ CI pts now ik later c' /\ (busy c' -> busy c \/ a = CSendSync).
Proof.
  intros C Ms Re E F. pose proof (ci_d _ _ _ _ _ C) as D. pose proof (ci_l _ _ _ _ _ C) as L.
  assert (dinv b0 c') as D'.
  { pose proof (call_did Kc a c) as X. rewrite E in X. cbn [res st outs fst snd] in X. destruct (X F) as [_ X']. eapply dinv_did; eauto. }
  assert (linv c') as L'. { pose proof (linv_call Kc a c L) as X. rewrite E in X. apply X. exact F. }
  assert (forall x, a <> CSendSync -> a <> CStop -> (In CSendSync (a :: later) \/ In CStop (a :: later)) \/ x ->
    (In CSendSync later \/ In CStop later) \/ x) as Dr.
  { intros x N1 N2 [[[H|H]|[H|H]]|H]; auto; contradiction. }
  destruct a as [p v cb|p| | |]; cbn [call] in E.
  - pose proof (add_sub_cases Kc p v cb c) as A. destruct (nm_find p (c_prefixes c)) as [x|] eqn:Ef.
    + rewrite (mbind_run _ _ _ _ _ _ A) in E. injection E as <- <- <-. split; [reflexivity|]. split; [|auto].
      constructor; try apply C; auto.
      intros i n H. destruct (ci_sync _ _ _ _ _ C i n H) as (c1 & c2 & c3 & cc & k & b & E & B & Ca & Pt & Z).
      exists c1, c2, c3, cc, k, b. repeat (split; [auto|]). intros q Hq. destruct (Z q Hq) as [Z1|[Z1|Z1]]; [auto|..];
        (destruct Z1 as [Z1|Z1]; [discriminate|auto]).
    + destruct (bloom_insert (c_bloom c) p) as [b1|e|u|] eqn:B.
      2:{ destruct (insert_throw _ _ _ B). }
      2:{ destruct A as [A|[e A]]; [|discriminate]. exfalso. apply A. destruct (add_sub Kc p v cb c) as [[s1 o1] r1] eqn:Q.
          rewrite (mbind_run _ _ _ _ _ _ Q) in E. destruct r1; cbn [res snd]; auto; injection E as <- <- <-; exact F. }
      2:{ destruct A as [A|[e A]]; [|discriminate]. exfalso. apply A. destruct (add_sub Kc p v cb c) as [[s1 o1] r1] eqn:Q.
          rewrite (mbind_run _ _ _ _ _ _ Q) in E. destruct r1; cbn [res snd]; auto; injection E as <- <- <-; exact F. }
      rewrite (mbind_run _ _ _ _ _ _ A) in E. cbn [memit] in E.
      set (c2 := cset_bloom b1 (cset_subs (nm_emplace p tt (c_subs c)) (cset_prefixes (nm_set p v (c_prefixes c)) c))) in *.
      assert (c' = c2 /\ r = Ok tt) as [-> ->] by (split; congruence). clear E. split; [reflexivity|].
      assert (forall q, known c2 q = if name_eqb q p then Some v else known c q) as Kn by (intros q; apply nm_find_set).
      assert (forall q, sub c2 q <-> q = p \/ sub c q) as Su.
      { intros q. unfold sub, c2. cbn [c_subs cset_bloom cset_subs]. rewrite nm_mem_emplace, orb_true_iff, name_eqb_eq. reflexivity. }
      assert (~ sub c p) as Ns. { intros H. apply (di_known _ _ D p H). exact Ef. }
      destruct (Ms p v cb (or_introl eq_refl)) as [Bl Ms1].
      assert (forall q, sub c q -> known c2 q = known c q) as Kq.
      { intros q Hq. rewrite Kn. destruct (name_eqb q p) eqn:Q; auto. apply name_eqb_eq in Q. subst. contradiction. }
      split; [|auto]. constructor; auto.
      * destruct (ci_iblt _ _ _ _ _ C) as [H|(cc & k & H1 & H2 & H3 & H4 & H5)]; [left; exact H|]. right. exists cc, k.
        repeat (split; [auto|]). intros q Sq Hq. apply Su in Hq as [->|Hq].
        -- destruct (Ms1 Sq) as [G|[G _]]; [|contradiction]. unfold covered. rewrite Kn, name_eqb_refl. apply (G k H1).
        -- unfold covered. rewrite Kq by auto. apply H5; auto.
      * intros q w. rewrite Kn. destruct (name_eqb q p) eqn:Q; [|apply C]. apply name_eqb_eq in Q. subst q. intros [= <-]. exact Bl.
      * intros i n H. change (c_live c2) with (c_live c) in H.
        destruct (ci_sync _ _ _ _ _ C i n H) as (d1 & d2 & d3 & cc & k & b & E & Bb & Ca & Pt & Z).
        exists d1, d2, d3, cc, k, b. repeat (split; [auto|]). intros q Hq. apply Su in Hq as [->|Hq].
        -- right. destruct (Re p v cb eq_refl) as [R1|[R1|R1]]; auto. destruct R1. exists i, n. exact H.
        -- destruct (Z q Hq) as [[Z1 Z2]|[Z1|Z1]]; [|destruct Z1 as [Z1|Z1]; [discriminate|auto]..].
           left. split; auto. intros Sq. unfold covered. rewrite Kq by auto. apply Z2. exact Sq.
      * intros i n H. eapply ci_hello; eauto.
  - pose proof (remove_sub_cases p c) as A. destruct (nm_mem p (c_subs c)) eqn:Ef.
    2:{ rewrite (mbind_run _ _ _ _ _ _ A) in E. injection E as <- <- <-. split; [reflexivity|]. split; [|auto].
      constructor; try apply C; auto.
      intros i n H. destruct (ci_sync _ _ _ _ _ C i n H) as (c1 & c2 & c3 & cc & k & b & E & B & Ca & Pt & Z).
      exists c1, c2, c3, cc, k, b. repeat (split; [auto|]). intros q Hq. destruct (Z q Hq) as [Z1|[Z1|Z1]]; [auto|..];
        (destruct Z1 as [Z1|Z1]; [discriminate|auto]). }
    destruct (insert_all (nm_keys (nm_erase p (c_subs c))) (bloom_clear (c_bloom c))) as [b1|e|u|] eqn:B.
    2:{ destruct (insert_all_throw _ _ _ B). }
    2:{ destruct A as [A|[e A]]; [|discriminate]. exfalso. apply A. destruct (remove_sub p c) as [[s1 o1] r1] eqn:Q.
        rewrite (mbind_run _ _ _ _ _ _ Q) in E. destruct r1; cbn [res snd]; auto; injection E as <- <- <-; exact F. }
    2:{ destruct A as [A|[e A]]; [|discriminate]. exfalso. apply A. destruct (remove_sub p c) as [[s1 o1] r1] eqn:Q.
        rewrite (mbind_run _ _ _ _ _ _ Q) in E. destruct r1; cbn [res snd]; auto; injection E as <- <- <-; exact F. }
    rewrite (mbind_run _ _ _ _ _ _ A) in E. cbn [memit] in E.
    set (c2 := cset_bloom b1 (cset_subs (nm_erase p (c_subs c)) (cset_prefixes (nm_erase p (c_prefixes c)) c))) in *.
    assert (c' = c2 /\ r = Ok tt) as [-> ->] by (split; congruence). clear E. split; [reflexivity|].
    assert (forall q, known c2 q = if name_eqb q p then None else known c q) as Kn.
    { intros q. apply nm_find_erase. apply D. }
    assert (forall q, sub c2 q -> sub c q /\ known c2 q = known c q) as Su.
    { intros q Hq. unfold sub, c2, nm_mem in *. cbn [c_subs cset_bloom cset_subs] in Hq. rewrite nm_find_erase in Hq by apply D.
      rewrite (Kn q). destruct (name_eqb q p); [discriminate|]. auto. }
    split; [|auto]. constructor; auto.
    + destruct (ci_iblt _ _ _ _ _ C) as [H|(cc & k & H1 & H2 & H3 & H4 & H5)]; [left; exact H|]. right. exists cc, k.
      repeat (split; [auto|]). intros q Sq Hq. apply Su in Hq as [Hq Ek]. unfold covered. rewrite Ek. apply H5; auto.
    + intros q w. rewrite Kn. destruct (name_eqb q p); [discriminate|apply C].
    + intros i n H. change (c_live c2) with (c_live c) in H.
      destruct (ci_sync _ _ _ _ _ C i n H) as (d1 & d2 & d3 & cc & k & b & E & Bb & Ca & Pt & Z).
      exists d1, d2, d3, cc, k, b. repeat (split; [auto|]). intros q Hq. apply Su in Hq as [Hq Ek].
      destruct (Z q Hq) as [[Z1 Z2]|[Z1|Z1]]; [|destruct Z1 as [Z1|Z1]; [discriminate|auto]..].
      left. split; auto. intros Sq. unfold covered. rewrite Ek. apply Z2. exact Sq.
    + intros i n H. eapply ci_hello; eauto.
  - rewrite send_hello_eq in E. assert (c' = cstart KHello (hello_prefix Kc) (cstop (c_hello c) c) /\ r = Ok tt) as [-> ->] by (split; congruence).
    split; [reflexivity|]. split.
    + apply ci_send_hello. constructor; try apply C; auto.
      intros i n H. destruct (ci_sync _ _ _ _ _ C i n H) as (c1 & c2 & c3 & cc & k & b & E' & B & Ca & Pt & Z).
      exists c1, c2, c3, cc, k, b. repeat (split; [auto|]). intros q Hq. destruct (Z q Hq) as [Z1|[Z1|Z1]]; [auto|..];
        (destruct Z1 as [Z1|Z1]; [discriminate|auto]).
    + intros (i & n & H). left. exists i, n. eapply live_start_other; [|exact H]. discriminate.
  - destruct (ci_send_sync _ _ _ _ later _ _ _ _ C E F) as [-> C']. auto.
  - pose proof (live_stop_all c L) as Q. rewrite E in Q. cbn [st fst] in Q.
    assert (same_data c c' /\ c_iblt c' = c_iblt c /\ r = Ok tt) as (Sd & Ei & ->).
    { injection E as <- <- <-. destruct c as [? ? ? ? ? ? ? ? [h|] [y|] ? ? ? ?]; repeat split; reflexivity. }
    split; [reflexivity|]. split; [|intros (i & n & H); rewrite Q in H; destruct H].
    assert (forall p, known c' p = known c p) as Kn by (intros p; unfold known; destruct Sd as [-> _]; reflexivity).
    constructor; auto.
    + eapply iblt_frame; [apply C|exact Ei|apply Sd|]. intros p. rewrite Kn. lia.
    + intros p v. rewrite Kn. apply C.
    + intros i n H. rewrite Q in H. destruct H.
    + intros i n H. rewrite Q in H. destruct H.
Qed.
Lemma ci_calls pts now ik later l : forall c c' o r, CI pts now ik (l ++ later) c -> may_sub now ik l c ->
  resends_in c later l -> calls Kc l c = (c', o, r) -> fine r -> r = Ok tt /\ CI pts now ik later c'.
Proof.
  induction l as [|a l IH]; intros c c' o r C Ms Re E F; cbn [calls] in E.
  - injection E as <- <- <-. auto.
  - destruct (call Kc a c) as [[c1 o1] r1] eqn:E1. rewrite (mbind_run _ _ _ _ _ _ E1) in E.
    assert (fine r1) as F1 by (destruct r1; simpl; auto; injection E as <- <- <-; exact F).
    pose proof (call_did Kc a c) as Dd. rewrite E1 in Dd. cbn [res st outs fst snd] in Dd. destruct (Dd F1) as [_ Dd']. clear Dd.
    destruct (ci_call pts now ik (l ++ later) a c c1 o1 r1) as (-> & C1 & B1); auto.
    + intros p v cb [->|[]]. destruct (Ms p v cb (or_introl eq_refl)) as [M1 M2]. split; auto. intros Sp.
      destruct (M2 Sp) as [M3|[M3 M4]]; auto. right. split; auto. intros [H|[]]. discriminate.
    + intros p v cb ->. destruct (Re [] p v cb l eq_refl) as [R|[R|[R _]]]; auto.
    + destruct (calls Kc l c1) as [[c2 o2] r2] eqn:E2. injection E as <- <- <-. apply (IH c1 c2 o2 r2 C1); auto.
      * intros p v cb H. destruct (Ms p v cb (or_intror H)) as [M1 M2]. split; auto. intros Sp.
        destruct (M2 Sp) as [M3|[M3 M4]]; auto. right. split; [|intros X; apply M4; right; exact X].
        eapply did_sub_keeps; [exact Dd'| |exact M3]. intros [X|[]]. apply M4. left. exact X.
      * intros l1 p v cb l2 E. destruct (Re (a :: l1) p v cb l2) as [R|[R|[R1 R2]]]; auto.
        { rewrite E. reflexivity. }
        right. right. split; [|intros X; apply R2; right; exact X]. intros Bu. destruct (B1 Bu) as [B2| ->]; [contradiction|].
        apply R2. left. reflexivity.
Qed.

(** *** Background *)
Definition any (k : core) : Prop := True.
Lemma ci_finish pts now ik later i c : CI pts now ik later c -> CI pts now ik later (cset_live (cwithout i (c_live c)) c).
Proof.
  intros C. apply (ci_frame pts now ik later c); auto; try (repeat split; fail).
  - apply linv_finish, C.
  - intros j n H. cbn in H. apply without_In in H as [H _]. exact H.
  - intros j n H. cbn in H. apply without_In in H as [H _]. auto.
Qed.
Lemma ci_timers pts now ik later t d c : CI pts now ik later c -> CI pts now ik later (cset_draws d (cset_timers t c)).
Proof.
  intros C. apply (ci_frame pts now ik later c); auto; try (repeat split; fail).
  eapply linv_same; [..|apply C]; reflexivity.
Qed.
Lemma ci_segment pts now ik i d c c1 o1 r1 : CI pts now ik [] c -> c_step Kc (CeSegment i d) c = (c1, o1, r1) ->
  r1 = Ok tt /\ CI pts now ik [] c1 /\ segmented Kc i d c c1 o1.
Proof.
  intros C E. destruct (segment_result Kc i d c c1 o1 r1 (ci_l _ _ _ _ _ C) E) as [-> G]. split; [reflexivity|]. split; [|exact G].
  destruct G as [G1 G2 G3 G4 G5 _ _ _]. apply (ci_frame pts now ik [] c); auto. intros j n H. apply G4. exact H.
Qed.
Lemma ci_background pts now ik e c c' o r : CI pts now ik [] c -> background e -> c_step Kc e c = (c', o, r) -> ends r ->
  r = Ok tt /\ CI pts now ik [] c' /\ no_hello o.
Proof.
  intros C Hb E F. apply ends_fine in F. destruct e as [a|i d|i buf s1 s2|i to|dt|i]; try destruct Hb.
  - destruct (ci_segment _ _ _ _ _ _ _ _ _ C E) as (-> & C' & G). split; [reflexivity|]. split; [exact C'|apply G].
  - cbn [c_step] in E. rewrite mbind_get in E. destruct (cfetch i (c_live c)) as [[[] n]|].
    + unfold finish, cschedule in E. rewrite mbind_mod in E.
      pose proof (ci_finish _ _ _ _ i _ C) as C1. set (c1 := cset_live (cwithout i (c_live c)) c) in *.
      unfold mmod in E. injection E as <- <- <-. split; [reflexivity|]. split; [apply ci_timers; exact C1|apply no_hello_nil].
    + unfold finish in E. rewrite mbind_mod in E.
      pose proof (ci_finish _ _ _ _ i _ C) as C1. set (c1 := cset_live (cwithout i (c_live c)) c) in *.
      destruct to.
      * destruct (ci_send_sync _ _ _ _ [] _ _ _ _ C1 E F) as [-> C2]. split; [reflexivity|]. split; [exact C2|].
        pose proof (send_sync_hello Kc c1) as Q. rewrite E in Q. exact Q.
      * unfold cschedule, mmod in E. injection E as <- <- <-. split; [reflexivity|]. split; [apply ci_timers; exact C1|apply no_hello_nil].
    + injection E as <- <- <-. split; [reflexivity|]. split; [exact C|apply no_hello_nil].
  - injection E as <- <- <-. split; [reflexivity|]. split; [|apply no_hello_nil].
    apply (ci_frame pts now ik [] c); auto; try (repeat split; fail). eapply linv_same; [..|apply C]; reflexivity.
  - cbn [c_step] in E. rewrite mbind_get in E.
    destruct (nth_error (c_timers c) i) as [[dl k]|]; [|injection E as <- <- <-; split; [reflexivity|]; split; [exact C|apply no_hello_nil]].
    destruct (dl <=? c_now c); [|injection E as <- <- <-; split; [reflexivity|]; split; [exact C|apply no_hello_nil]].
    rewrite mbind_mod in E. set (c1 := cset_timers _ c) in *.
    assert (CI pts now ik [] c1) as C1.
    { apply (ci_frame pts now ik [] c); auto; try (repeat split; fail). eapply linv_same; [..|apply C]; reflexivity. }
    destruct k.
    + rewrite send_hello_eq in E. assert (c' = cstart KHello (hello_prefix Kc) (cstop (c_hello c1) c1) /\ r = Ok tt /\ o = [CoInterest KHello (hello_prefix Kc)]) as (-> & -> & ->) by (split; [congruence|split; congruence]).
      split; [reflexivity|]. split; [apply ci_send_hello; exact C1|apply no_hello_one; discriminate].
    + destruct (ci_send_sync _ _ _ _ [] _ _ _ _ C1 E F) as [-> C2]. split; [reflexivity|]. split; [exact C2|].
      pose proof (send_sync_hello Kc c1) as Q. rewrite E in Q. exact Q.
Qed.

(** *** Hello data *)
Lemma ci_hello_data pts now c i n buf sc1 sc2 c' o r names k0 cc : CI pts now any [] c ->
  cfetch i (c_live c) = Some (KHello, n) -> last_comp (c_hname c) = [cc] -> carr cc k0 -> pts k0 ->
  state_of_buffer buf = Ok names -> Forall good_name names -> (forall p v, brings names p v <-> get_seq p k0 = Some v) ->
  (forall p v, get_seq p k0 = Some v -> below now p v) ->
  may_sub now (eq k0) sc1 c -> resends (busy c) sc1 -> resends True sc2 ->
  (forall p v cb, In (CSub p v cb) sc2 -> below now p v /\ (S p -> sub c p /\ ~ In (CUnsub p) (sc1 ++ sc2))) ->
  c_step Kc (CeContent i buf sc1 sc2) c = (c', o, r) -> ends r ->
  r = Ok tt /\ CI pts now any [] c' /\ exists av o', o = CoHello av :: o' /\ no_hello o' /\
    forall p v, nm_find p av = Some v -> get_seq p k0 = Some v.
Proof.
  intros C Fi Lc Ca Pt Sb Gn Br Bn Ms1 Re1 Re2 Ms2 E F. apply ends_fine in F.
  cbn [c_step] in E. rewrite mbind_get, Fi in E. unfold finish in E. rewrite mbind_mod in E.
  pose proof (ci_finish _ _ _ _ i _ C) as C1.
  assert (forall j m, In (j, (KSync, m)) (c_live (cset_live (cwithout i (c_live c)) c)) -> In (j, (KSync, m)) (c_live c)) as Bs.
  { intros j m H. cbn in H. apply without_In in H as [H _]. exact H. }
  set (c1 := cset_live (cwithout i (c_live c)) c) in *.
  unfold on_hello_data in E. rewrite mbind_mod, mbind_lift, Sb in E. change (c_hname c1) with (c_hname c) in E. rewrite Lc in E.
  set (c2 := cset_iblt [cc] c1) in *.
  destruct (take_hello_good names Gn [] c2) as (l & Rl). pose proof (take_hello_inv names [] c2) as (O2 & (m & Em & Sm) & Ch & _).
  pose proof (take_hello_all names [] c2 l) as Al. pose proof (take_hello_av names [] c2 l) as Av.
  destruct (take_hello names [] c2) as [[c3 o3] r3] eqn:T. cbn [res outs st fst snd] in *. subst o3 r3.
  rewrite (mbind_run _ _ _ _ _ _ T) in E. destruct (Ch l eq_refl) as [Chn _]. clear Ch.
  rewrite mbind_emit in E.
  assert (dinv b0 c3) as D3.
  { rewrite Em. eapply dinv_chain with (l := fst l); [|apply Sm; change (c_prefixes c2) with (c_prefixes c1); apply C1|rewrite <- Em; exact Chn].
    eapply dinv_same; [|apply C1]. repeat split. }
  assert (linv c3) as L3 by (rewrite Em; eapply linv_same; [..|apply C1]; reflexivity).
  assert (c_subs c3 = c_subs c) as Es by (rewrite Em; reflexivity).
  assert (c_live c3 = c_live c1) as El by (rewrite Em; reflexivity).
  assert (CI pts now (eq k0) [] c3) as C3.
  { apply (ci_update pts now any [] c1); auto.
    - intros p. change (known c1) with (known c2). apply (report_chain_mono _ _ _ p Chn).
    - intros j x H. rewrite <- El. exact H.
    - intros j x H. left. rewrite <- El. exact H.
    - right. exists cc, k0. split; [reflexivity|]. split; [exact Pt|]. split; [rewrite Em; reflexivity|]. split; [exact Ca|].
      intros p Sp Hp. unfold covered. destruct (get_seq p k0) as [v|] eqn:G; [|simpl; lia].
      apply Br in G as (x & Hx & Ex). pose proof (Al p x v eq_refl Hx Ex) as A. simpl.
      assert (v <= seq0 (known c3 p)); [|lia]. apply A. unfold sub in *. change (c_subs c2) with (c_subs c). rewrite <- Es. exact Hp.
    - intros p v H.
      pose proof (take_hello_inv names [] c2) as (_ & _ & _ & l' & Ch' & Fo). rewrite T in Ch'. cbn [st fst] in Ch'.
      destruct (chain_values _ _ _ _ _ Ch' H) as [H1|(mi' & N1 & N2 & N3)]; [apply (ci_known _ _ _ _ _ C); exact H1|].
      rewrite Forall_forall in Fo. destruct (Fo mi' N1) as [B _]. subst p v. apply Bn. apply Br. exact B. }
  destruct (calls Kc sc1 c3) as [[c4 o4] r4] eqn:T4. rewrite (mbind_run _ _ _ _ _ _ T4) in E.
  assert (fine r4) as F4 by (destruct r4; simpl; auto; injection E as <- <- <-; exact F).
  pose proof (calls_did Kc sc1 c3) as Dd. rewrite T4 in Dd. cbn [res outs st fst snd] in Dd. destruct (Dd F4) as [_ Dd']. clear Dd.
  destruct (ci_calls pts now (eq k0) [] sc1 c3 c4 o4 r4) as [-> C4]; auto.
  { rewrite app_nil_r. apply (ci_frame pts now (eq k0) [] c3); auto; try apply same_refl. intros a []. }
  { intros p v cb H. destruct (Ms1 p v cb H) as [A B]. split; auto. intros Sp. destruct (B Sp) as [B1|[B1 B2]]; auto.
    right. split; auto. unfold sub. rewrite Es. exact B1. }
  { intros l1 p v cb l2 El2. rewrite app_nil_r. destruct (Re1 l1 p v cb l2 El2) as [R|[R|[R1 R2]]]; auto. right. right. split; auto.
    intros (j & x & H). apply R1. exists j, x. rewrite El in H. apply Bs. exact H. }
  pose proof (calls_hello Kc sc1 c3) as N4. rewrite T4 in N4. cbn [outs fst snd] in N4.
  assert (CI pts now any [] c4) as C4' by (eapply ci_weaken; [exact C4|..]; auto; intros k _; exact I).
  assert (forall p v, nm_find p (snd l) = Some v -> get_seq p k0 = Some v) as Av'.
  { intros p v H. destruct (Av p v eq_refl H) as [X|X]; [discriminate|]. apply Br. exact X. }
  destruct (fst l) as [|u us].
  - injection E as <- <- <-. split; [reflexivity|]. split; [exact C4'|].
    eexists _, _. split; [reflexivity|]. split; [|exact Av']. apply no_hello_app; [exact N4|apply no_hello_nil].
  - rewrite mbind_emit in E. destruct (calls Kc sc2 c4) as [[c5 o5] r5] eqn:T5. injection E as <- <- <-.
    destruct (ci_calls pts now any [] sc2 c4 c5 o5 r5) as [-> C5]; auto.
    { rewrite app_nil_r. apply (ci_frame pts now any [] c4); auto; try apply same_refl; [apply C4'|]. intros a []. }
    { intros p v cb H. destruct (Ms2 p v cb H) as [A B]. split; auto. intros Sp. destruct (B Sp) as [B1 B2]. right.
      split; [|intros X; apply B2, in_or_app; auto]. eapply did_sub_keeps; [exact Dd'|intros X; apply B2, in_or_app; auto|].
      unfold sub. rewrite Es. exact B1. }
    { intros l1 p v cb l2 El2. rewrite app_nil_r. destruct (Re2 l1 p v cb l2 El2) as [R|[R|[R1 R2]]]; auto. exfalso. apply R1. exact I. }
    split; [reflexivity|]. split; [exact C5|]. eexists _, _. split; [reflexivity|]. split; [|exact Av'].
    pose proof (calls_hello Kc sc2 c4) as N5. rewrite T5 in N5. cbn [outs fst snd] in N5.
    apply no_hello_app; [exact N4|]. intros av [H|H]; [discriminate|]. apply (N5 av H).
Qed.

(** *** Sync data *)
Lemma ci_sync_data pts now c i n buf sc1 sc2 c' o r names k0 cc : CI pts now any [] c ->
  cfetch i (c_live c) = Some (KSync, n) -> c_type c = Blob -> last_comp (c_sname c) = [cc] -> carr cc k0 -> pts k0 ->
  state_of_buffer buf = Ok names -> Forall good_name names -> (forall p v, brings names p v -> get_seq p k0 = Some v) ->
  (forall p v, get_seq p k0 = Some v -> below now p v) ->
  (forall p, sub c p -> S p -> covered c k0 p \/ exists v, get_seq p k0 = Some v /\ brings names p v) ->
  may_sub now any sc2 c ->
  c_step Kc (CeContent i buf sc1 sc2) c = (c', o, r) -> ends r ->
  r = Ok tt /\ CI pts now any [] c' /\ no_hello o.
Proof.
  intros C Fi Ty Lc Ca Pt Sb Gn Br Bn Cp Ms E F. apply ends_fine in F.
  cbn [c_step] in E. rewrite mbind_get, Fi in E. unfold finish in E. rewrite mbind_mod, Ty in E. cbn [is_nack] in E.
  pose proof (ci_finish _ _ _ _ i _ C) as C1. set (c1 := cset_live (cwithout i (c_live c)) c) in *.
  unfold on_csync_data in E. rewrite mbind_mod, mbind_lift, Sb in E. change (c_sname c1) with (c_sname c) in E. rewrite Lc in E.
  set (c2 := cset_iblt [cc] c1) in *.
  destruct (take_sync_good names Gn c2) as (l & Rl). pose proof (take_sync_inv names c2) as (O2 & (m & Em & Sm) & Ch & l' & Ch' & Fo).
  pose proof (take_sync_all names c2 l) as Al.
  destruct (take_sync names c2) as [[c3 o3] r3] eqn:T. cbn [res outs st fst snd] in *. subst o3 r3.
  rewrite (mbind_run _ _ _ _ _ _ T) in E. pose proof (Ch l eq_refl) as Chn. clear Ch.
  assert (dinv b0 c3) as D3.
  { rewrite Em. eapply dinv_chain with (l := l); [|apply Sm; change (c_prefixes c2) with (c_prefixes c1); apply C1|rewrite <- Em; exact Chn].
    eapply dinv_same; [|apply C1]. repeat split. }
  assert (linv c3) as L3 by (rewrite Em; eapply linv_same; [..|apply C1]; reflexivity).
  assert (c_subs c3 = c_subs c) as Es by (rewrite Em; reflexivity).
  assert (c_live c3 = c_live c1) as El by (rewrite Em; reflexivity).
  set (sc := match l with [] => [] | _ => sc2 end).
  assert (CI pts now any (sc ++ [CSendSync]) c3) as C3.
  { apply (ci_update pts now any [] c1); auto.
    - intros p. change (known c1) with (known c2). apply (report_chain_mono _ _ _ p Chn).
    - intros j x H. rewrite <- El. exact H.
    - intros j x H. left. rewrite <- El. exact H.
    - intros a [].
    - right. exists cc, k0. split; [exact I|]. split; [exact Pt|]. split; [rewrite Em; reflexivity|]. split; [exact Ca|].
      intros p Sp Hp. unfold sub in Hp. rewrite Es in Hp.
      pose proof (report_chain_mono _ _ _ p Chn) as Mo. change (known c2) with (known c) in Mo.
      destruct (Cp p Hp Sp) as [G|(v & G & x & Hx & Ex)]; unfold covered in *; [lia|]. rewrite G. simpl.
      destruct (Al p x v eq_refl Hx Ex) as [_ A]. lia.
    - intros p v H. destruct (chain_values _ _ _ _ _ Ch' H) as [H1|(mi' & N1 & N2 & N3)]; [apply (ci_known _ _ _ _ _ C); exact H1|].
      rewrite Forall_forall in Fo. pose proof (Fo mi' N1) as B. subst p v. apply Bn. apply Br. exact B. }
  assert (may_sub now any sc c3) as Ms'.
  { intros p v cb H. assert (In (CSub p v cb) sc2 /\ (In (CUnsub p) sc -> In (CUnsub p) sc2)) as [H1 H2] by (unfold sc in *; destruct l; [destruct H|auto]).
    destruct (Ms p v cb H1) as [A B]. split; auto. intros Sp. destruct (B Sp) as [B1|[B1 B2]]; auto.
    right. split; auto. unfold sub. rewrite Es. exact B1. }
  assert (resends_in c3 [CSendSync] sc) as Re'.
  { intros l1 p v cb l2 _. left. apply in_or_app. right. left. reflexivity. }
  destruct (calls Kc sc c3) as [[c4 o4] r4] eqn:T4.
  pose proof (calls_hello Kc sc c3) as N4. rewrite T4 in N4. cbn [outs fst snd] in N4.
  destruct (send_sync Kc c4) as [[c5 o5] r5] eqn:T5.
  pose proof (send_sync_hello Kc c4) as N5. rewrite T5 in N5. cbn [outs fst snd] in N5.
  assert (fine r4 /\ (r4 = Ok tt -> c' = c5 /\ r = r5 /\ (no_hello o))) as [F4 Z].
  { destruct l as [|u us].
    - unfold sc in T4. cbn [calls] in T4. injection T4 as <- <- <-. rewrite mbind_ret, T5 in E. injection E as <- <- <-.
      split; [exact I|]. intros _. split; [reflexivity|]. split; [reflexivity|exact N5].
    - unfold sc in T4. rewrite mbind_assoc, mbind_emit, (mbind_run _ _ _ _ _ _ T4) in E. destruct r4 as [[]|e|x|].
      + rewrite T5 in E. injection E as <- <- <-. split; [exact I|]. intros _. split; [reflexivity|]. split; [reflexivity|].
        intros av [H|H]; [discriminate|]. revert H. apply (no_hello_app _ _ N4 N5).
      + split; [exact I|discriminate].
      + injection E as <- <- <-. destruct F.
      + injection E as <- <- <-. destruct F. }
  destruct (ci_calls pts now any [CSendSync] sc c3 c4 o4 r4 C3 Ms' Re' T4 F4) as [-> C4].
  destruct (Z eq_refl) as (-> & -> & No).
  destruct (ci_send_sync _ _ _ _ [] _ _ _ _ C4 T5 F) as [-> C5]. auto.
Qed.
(** a Nack *)
Lemma ci_nack pts now c i n buf sc1 sc2 c' o r : CI pts now any [] c -> cfetch i (c_live c) = Some (KSync, n) -> c_type c = AppNack ->
  c_step Kc (CeContent i buf sc1 sc2) c = (c', o, r) -> r = Ok tt /\ CI pts now any [] c' /\ no_hello o.
Proof.
  intros C Fi Ty E. cbn [c_step] in E. rewrite mbind_get, Fi in E. unfold finish in E. rewrite mbind_mod, Ty in E. cbn [is_nack] in E.
  pose proof (ci_finish _ _ _ _ i _ C) as C1. set (c1 := cset_live (cwithout i (c_live c)) c) in *.
  injection E as <- <- <-. split; [reflexivity|]. split; [|apply no_hello_nil].
  apply (ci_frame pts now any [] c1); auto; try (repeat split; fail). eapply linv_same; [..|apply C1]; reflexivity.
Qed.
End Ci.
