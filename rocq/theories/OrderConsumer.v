(** Proofs about the order in which updates reach a consumer. *)
From Coq Require Import List NArith ZArith Bool Arith Lia Sorted.
From Verif Require Import Base Iblt BaseFacts Mon MonFacts Tlv TlvFacts State SpecTlv StateFacts NMap NMapFacts
  Codec Bloom SpecBloom Store Producer Partial SpecPartial PartialFacts PartialSteps Full SpecFull FullSafe FullData ExchangeFacts Consumer SpecConsumer ConsumerFacts SpecOrder OrderFacts.
Import ListNotations.
Local Open Scope N_scope.

(** the number of [p] was not lowered, covers what was said, and is either the old one or was said *)
Definition settles (Y : N -> Prop) (f g : option N) : Prop :=
  seq0 f <= seq0 g /\ (forall v, Y v -> v <= seq0 g) /\ (g = f \/ exists v, g = Some v /\ Y v).
Lemma settles_more (Y : N -> Prop) v f g : settles Y f g -> v <= seq0 f \/ v <= seq0 g -> settles (fun w => Y w \/ w = v) f g.
Proof.
  intros (A & B & C) H. split; [exact A|]. split.
  - intros w [Hw| ->]; auto. destruct H; lia.
  - destruct C as [C|(w & C & Hw)]; [left; exact C|right; exists w; auto].
Qed.
Lemma says_here p x v names : to_number x = Ok v -> says ((p ++ [x]) :: names) p v.
Proof. intros T. exists [], x, names. split; [reflexivity|]. split; [exact T|constructor]. Qed.

Lemma take_sync_order names : forall s p, fine (res (take_sync names s)) -> known s p <> None ->
  settles (says names p) (known s p) (known (st (take_sync names s)) p).
Proof.
  induction names as [|c names IH]; intros s p; cbn [take_sync].
  - intros _ _. split; [unfold st; cbn; lia|]. split; [|left; reflexivity]. intros v ([|] & x & a & E & _); discriminate.
  - rewrite mbind_lift. destruct (name_get_minus c 1) as [x|e|u|] eqn:Ex; try (intros []; fail).
    2:{ destruct c as [|y c _] using rev_ind; [discriminate|]. rewrite name_get_minus_last in Ex. discriminate. }
    pose proof (name_split c x Ex) as Hc. set (q := name_prefix_back c 1) in *. rewrite mbind_lift.
    assert (forall v, says (c :: names) p v -> exists w, to_number x = Ok w) as Num.
    { intros v H. destruct (says_inv _ _ _ _ H) as [(y & E & T)|[(r & y & E & w & T) _]].
      - rewrite Hc in E. apply app_inj_tail in E as [_ <-]. eauto.
      - rewrite Hc in E. apply app_inj_tail in E as [_ <-]. eauto. }
    destruct (to_number x) as [w|e|u|] eqn:Ev; try (intros []; fail).
    2:{ intros _ _. split; [unfold st; cbn; lia|]. split; [|left; reflexivity]. intros v H. destruct (Num v H). discriminate. }
    cbv zeta. rewrite mbind_get.
    assert (good_name c) as Gc by (exists q, x; split; eauto).
    assert (forall g f, settles (says names p) f g -> (p = q -> w <= seq0 g) ->
       settles (says (c :: names) p) f g) as Lift.
    { intros g f (A & B & C) Hw. split; [exact A|]. split.
      - intros v H. destruct (says_inv _ _ _ _ H) as [(y & E & T)|[_ H']]; [|auto].
        rewrite Hc in E. apply app_inj_tail in E as [E <-]. rewrite T in Ev. injection Ev as <-. apply Hw. auto.
      - destruct C as [C|(v & C & D)]; [left; exact C|right; exists v; split; [exact C|apply says_cons; auto]]. }
    destruct (match nm_find q (c_prefixes s) with None => true | Some cur => cur <? w end) eqn:B.
    + rewrite mbind_mod. set (s1 := cset_prefixes (nm_set q w (c_prefixes s)) s).
      pose proof (known_set q w s p) as Ks. fold s1 in Ks. specialize (IH s1 p).
      unfold mbind. destruct (take_sync names s1) as [[s2 o2] r2]. unfold st, res in *. cbn [fst snd] in *.
      intros F Kn.
      assert (fine r2) as F2 by (destruct r2; first [exact I|exact F]).
      assert (fst (fst (match r2 with Ok a => let '(s3, o3, r3) := mret (mkMissing q (w64 (match nm_find q (c_prefixes s) with Some x0 => x0 | None => 0 end + 1)) w 0 :: a) s2 in (s3, o2 ++ o3, r3)
         | Throw e => (s2, o2, Throw e) | UB u => (s2, o2, UB u) | Hang => (s2, o2, Hang) end)) = s2) as Es by (destruct r2; reflexivity).
      rewrite Es. destruct (name_eqb p q) eqn:Epq.
      * apply name_eqb_eq in Epq. subst p. rewrite Ks in IH. destruct (IH F2) as (A & B' & C); [discriminate|].
        assert (seq0 (known s q) < w) as Lt.
        { unfold known in *. destruct (nm_find q (c_prefixes s)) as [cur|]; [|congruence]. apply N.ltb_lt in B. exact B. }
        cbn [seq0] in A. split; [lia|]. split.
        -- intros v H. destruct (says_inv _ _ _ _ H) as [(y & E & T)|[_ H']]; [|auto].
           rewrite Hc in E. apply app_inj_tail in E as [_ <-]. rewrite T in Ev. injection Ev as <-. exact A.
        -- right. destruct C as [C|(v & C & D)]; [exists w; split; [exact C|]|exists v; split; [exact C|apply says_cons; auto]].
           rewrite Hc. apply says_here. exact Ev.
      * rewrite Ks in IH. apply Lift; [apply IH; auto|]. intros ->. rewrite name_eqb_refl in Epq. discriminate.
    + intros F Kn. apply Lift; [apply IH; auto|]. intros ->.
      destruct (IH s q F Kn) as (A & _ & _). unfold known in A at 1. destruct (nm_find q (c_prefixes s)) as [cur|]; [|discriminate].
      cbn [seq0] in A. apply N.ltb_ge in B. lia.
Qed.
Lemma take_hello_order names : forall av s p, fine (res (take_hello names av s)) -> known s p <> None -> is_subscribed p s = true ->
  settles (says names p) (known s p) (known (st (take_hello names av s)) p).
Proof.
  induction names as [|c names IH]; intros av s p; cbn [take_hello].
  - intros _ _ _. split; [unfold st; cbn; lia|]. split; [|left; reflexivity]. intros v ([|] & x & a & E & _); discriminate.
  - rewrite mbind_lift. destruct (name_get_minus c 1) as [x|e|u|] eqn:Ex; try (intros []; fail).
    2:{ destruct c as [|y c _] using rev_ind; [discriminate|]. rewrite name_get_minus_last in Ex. discriminate. }
    pose proof (name_split c x Ex) as Hc. set (q := name_prefix_back c 1) in *. rewrite mbind_lift.
    assert (forall v, says (c :: names) p v -> exists w, to_number x = Ok w) as Num.
    { intros v H. destruct (says_inv _ _ _ _ H) as [(y & E & T)|[(r & y & E & w & T) _]].
      - rewrite Hc in E. apply app_inj_tail in E as [_ <-]. eauto.
      - rewrite Hc in E. apply app_inj_tail in E as [_ <-]. eauto. }
    destruct (to_number x) as [w|e|u|] eqn:Ev; try (intros []; fail).
    2:{ intros _ _ _. split; [unfold st; cbn; lia|]. split; [|left; reflexivity]. intros v H. destruct (Num v H). discriminate. }
    cbv zeta. rewrite mbind_get.
    assert (good_name c) as Gc by (exists q, x; split; eauto).
    assert (forall g f, settles (says names p) f g -> (p = q -> w <= seq0 g) ->
       settles (says (c :: names) p) f g) as Lift.
    { intros g f (A & B & C) Hw. split; [exact A|]. split.
      - intros v H. destruct (says_inv _ _ _ _ H) as [(y & E & T)|[_ H']]; [|auto].
        rewrite Hc in E. apply app_inj_tail in E as [E <-]. rewrite T in Ev. injection Ev as <-. apply Hw. auto.
      - destruct C as [C|(v & C & D)]; [left; exact C|right; exists v; split; [exact C|apply says_cons; auto]]. }
    set (cur := match nm_find q (c_prefixes s) with Some x => x | None => 0 end).
    assert (cur = seq0 (known s q)) as Ecur by reflexivity.
    destruct (is_subscribed q s && (cur <? w)) eqn:B.
    + apply andb_true_iff in B as [B1 B2]. apply N.ltb_lt in B2.
      rewrite mbind_mod. set (s1 := cset_prefixes (nm_set q w (c_prefixes s)) s).
      pose proof (known_set q w s p) as Ks. fold s1 in Ks. specialize (IH (nm_emplace q w av) s1 p).
      unfold mbind. destruct (take_hello names (nm_emplace q w av) s1) as [[s2 o2] r2] eqn:Et. unfold st, res in *. cbn [fst snd] in *.
      intros F Kn Sp.
      assert (fine r2) as F2 by (destruct r2; first [exact I|exact F]).
      assert (fst (fst (match r2 with Ok a => let '(s3, o3, r3) := mret (mkMissing q (w64 (cur + 1)) w 0 :: fst a, snd a) s2 in (s3, o2 ++ o3, r3)
         | Throw e => (s2, o2, Throw e) | UB u => (s2, o2, UB u) | Hang => (s2, o2, Hang) end)) = s2) as Es by (destruct r2; reflexivity).
      rewrite Es. destruct (name_eqb p q) eqn:Epq.
      * apply name_eqb_eq in Epq. subst p. rewrite Ks in IH. destruct (IH F2) as (A & B' & C); [discriminate|exact Sp|].
        cbn [seq0] in A. split; [lia|]. split.
        -- intros v H. destruct (says_inv _ _ _ _ H) as [(y & E & T)|[_ H']]; [|auto].
           rewrite Hc in E. apply app_inj_tail in E as [_ <-]. rewrite T in Ev. injection Ev as <-. exact A.
        -- right. destruct C as [C|(v & C & D)]; [exists w; split; [exact C|]|exists v; split; [exact C|apply says_cons; auto]].
           rewrite Hc. apply says_here. exact Ev.
      * rewrite Ks in IH. apply Lift; [apply IH; auto|]. intros ->. rewrite name_eqb_refl in Epq. discriminate.
    + intros F Kn Sp. apply Lift; [apply IH; auto|]. intros ->.
      destruct (IH _ s q F Kn Sp) as (A & _ & _). rewrite Sp in B. cbn [andb] in B. apply N.ltb_ge in B. lia.
Qed.

Lemma did_subs A s o s' p : did A s o s' -> ~ In (CUnsub p) A -> is_subscribed p s = true -> is_subscribed p s' = true.
Proof.
  unfold is_subscribed.
  intros D N. induction D as [s o s' X Y|s q v cb b s' X Y Z P Q R|s q b s' X Y Z P Q R|s o1 s1 o2 s2 D1 I1 D2 I2]; intros Sp; auto.
  - destruct X as (E1 & E2 & _). rewrite E2. auto.
  - rewrite Q, nm_mem_emplace, Sp, orb_true_r. reflexivity.
  - rewrite Q. unfold nm_mem in *. rewrite nm_find_erase_other; [exact Sp|]. intros ->. contradiction.
Qed.
Lemma did_keeps b0 A s o s' p : did A s o s' -> dinv b0 s -> ~ In (CUnsub p) A -> is_subscribed p s = true ->
  known s' p = known s p /\ is_subscribed p s' = true.
Proof.
  intros D Di N Sp. split; [|eapply did_subs; eauto]. destruct (did_order _ _ _ _ _ p D Di N) as [H _].
  apply H. apply (di_known _ _ Di). exact Sp.
Qed.
Lemma settles_eq Y f g g' : g' = g -> settles Y f g -> settles Y f g'.
Proof. intros ->. auto. Qed.
Lemma settles_iff (Y Z : N -> Prop) f g : (forall v, Y v <-> Z v) -> settles Y f g -> settles Z f g.
Proof.
  intros H (A & B & C). split; [exact A|]. split; [intros v Hv; apply B, H, Hv|].
  destruct C as [C|(v & C & D)]; [left; exact C|right; exists v; split; [exact C|apply H, D]].
Qed.
Lemma settles_none (Y : N -> Prop) f g : (forall v, ~ Y v) -> g = f -> settles Y f g.
Proof. intros H ->. split; [lia|]. split; [intros v Hv; destruct (H v Hv)|left; reflexivity]. Qed.

Lemma cstep_order b0 K e s p : dinv b0 s -> fine (res (c_step K e s)) -> ~ In (CUnsub p) (calls_of e) -> is_subscribed p s = true ->
  is_subscribed p (st (c_step K e s)) = true /\ settles (heard e s p) (known s p) (known (st (c_step K e s)) p).
Proof.
  intros D F N Sp.
  assert ((exists i buf sc1 sc2, e = CeContent i buf sc1 sc2) \/ forall i buf sc1 sc2, e <> CeContent i buf sc1 sc2) as [(i & buf & sc1 & sc2 & ->)|No].
  { destruct e; eauto 6; right; discriminate. }
  2:{ pose proof (c_step_view K e s F) as V.
      assert (content_of e = []) as Ce by (destruct e; auto; exfalso; eapply No; reflexivity).
      inversion V as [o s' r Di Hr Eo Es Er|s' r buf e' B|s0 s1 r names buf e' B|s0 s1 r names buf e' B|s0 s1 s' names buf l o r B
        |s0 s1 s2 s' names buf l av o1 o2 r B]; try (rewrite Ce in B; destruct B).
      destruct (did_keeps b0 _ _ _ _ p Di D N Sp) as [E1 E2]. split; [exact E2|]. apply settles_none; [|exact E1].
      intros v (i & buf & sc1 & sc2 & k & n & names & E & _). exact (No _ _ _ _ E). }
  pose proof (di_known _ _ D p Sp) as Kn.
  cbn [c_step] in *. rewrite mbind_get in *. destruct (cfetch i (c_live s)) as [[k n]|] eqn:Fi.
  2:{ split; [exact Sp|]. apply settles_none; [|reflexivity]. intros v (i' & buf' & sc1' & sc2' & k & n & names & E & C & _).
      injection E as <- <- <- <-. congruence. }
  assert (forall v names, state_of_buffer buf = Ok names -> (k = KSync -> is_nack (c_type s) = false) ->
    says names p v <-> heard (CeContent i buf sc1 sc2) s p v) as Hh.
  { intros v names E Nk. split.
    - intros H. exists i, buf, sc1, sc2, k, n, names. auto.
    - intros (i' & buf' & sc1' & sc2' & k' & n' & names' & X & _ & _ & E' & H). injection X as <- <- <- <-.
      rewrite E in E'. injection E' as <-. exact H. }
  assert (forall e', state_of_buffer buf = Throw e' -> forall v, ~ heard (CeContent i buf sc1 sc2) s p v) as Hn.
  { intros e' E v (i' & buf' & sc1' & sc2' & k' & n' & names' & X & _ & _ & E' & H). injection X as <- <- <- <-. congruence. }
  assert (forall sc, (forall a, In a sc -> In a (sc1 ++ sc2)) -> ~ In (CUnsub p) sc) as Nsc.
  { intros sc H X. apply N. cbn [calls_of]. apply H. exact X. }
  destruct k.
  - unfold finish in *. rewrite mbind_mod in *. set (s0 := cset_live _ s) in *.
    unfold on_hello_data in *. rewrite mbind_mod, mbind_lift in *. set (s1 := cset_iblt _ s0) in *.
    destruct (state_of_buffer_outcomes buf) as [[names E]|[E|E]]; rewrite E in *.
    2,3: split; [exact Sp|]; apply settles_none; [exact (Hn _ eq_refl)|reflexivity].
    assert (dinv b0 s1) as D1 by (apply (dinv_same b0 s); [repeat split|exact D]).
    pose proof (take_hello_order names [] s1 p) as T.
    destruct (take_hello_inv names [] s1) as (T1 & (m & T2 & T4) & T3 & _).
    destruct (take_hello names [] s1) as [[s2 o2] r2] eqn:Et. unfold res, st in *. cbn [fst snd] in *.
    rewrite (mbind_run _ _ _ _ _ _ Et) in F |- *.
    assert (fine r2) as F2 by (destruct r2; first [exact I|exact F]). specialize (T F2 Kn Sp).
    assert (is_subscribed p s2 = true) as Sp2 by (rewrite T2; exact Sp).
    apply (settles_iff _ (heard (CeContent i buf sc1 sc2) s p)) in T; [|intros v; apply (Hh v names eq_refl); discriminate].
    destruct r2 as [[l av]|e2|u2|]; cbn [fst snd] in *; [|split; [exact Sp2|exact T]|destruct F2..].
    assert (dinv b0 s2) as D2.
    { rewrite T2 in *. eapply dinv_chain; [exact D1|apply T4, D1|]. exact (proj1 (T3 _ eq_refl)). }
    rewrite mbind_emit in *. pose proof (calls_did K sc1 s2) as C1. destruct (calls K sc1 s2) as [[s3 o3] r3] eqn:EC.
    rewrite (mbind_run _ _ _ _ _ _ EC) in F |- *. cbn [outs st res fst snd] in *.
    assert (fine r3) as F3 by (destruct r3; first [exact I|exact F]). destruct (C1 F3) as [-> Di1].
    destruct (did_keeps b0 _ _ _ _ p Di1 D2) as [K1 Sp3]; [apply Nsc; intros; apply in_or_app; auto|exact Sp2|].
    destruct l as [|m0 l].
    + cbn [mret fst snd] in *. split; [exact Sp3|]. eapply settles_eq; [exact K1|exact T].
    + rewrite mbind_emit in *. pose proof (calls_did K sc2 s3) as C2. destruct (calls K sc2 s3) as [[s4 o4] r4].
      cbn [outs st res fst snd] in *. destruct (C2 F) as [_ Di2].
      destruct (did_keeps b0 _ _ _ _ p Di2) as [K2 Sp4]; [eapply dinv_did; eauto|apply Nsc; intros; apply in_or_app; auto|exact Sp3|].
      split; [exact Sp4|]. eapply settles_eq; [rewrite K2; exact K1|exact T].
  - unfold finish in *. rewrite mbind_mod in *. set (s0 := cset_live _ s) in *. destruct (is_nack (c_type s)) eqn:Nk.
    { split; [exact Sp|]. apply settles_none; [|reflexivity]. intros v (i' & buf' & sc1' & sc2' & k & n' & names & E & C & G & _).
      injection E as <- <- <- <-. rewrite C in Fi. injection Fi as -> <-. specialize (G eq_refl). congruence. }
    unfold on_csync_data in *. rewrite mbind_mod, mbind_lift in *. set (s1 := cset_iblt _ s0) in *.
    destruct (state_of_buffer_outcomes buf) as [[names E]|[E|E]]; rewrite E in *.
    2,3: split; [exact Sp|]; apply settles_none; [exact (Hn _ eq_refl)|reflexivity].
    assert (dinv b0 s1) as D1 by (apply (dinv_same b0 s); [repeat split|exact D]).
    pose proof (take_sync_order names s1 p) as T.
    destruct (take_sync_inv names s1) as (T1 & (m & T2 & T4) & T3 & _).
    destruct (take_sync names s1) as [[s2 o2] r2] eqn:Et. unfold res, st in *. cbn [fst snd] in *.
    rewrite (mbind_run _ _ _ _ _ _ Et) in F |- *.
    assert (fine r2) as F2 by (destruct r2; first [exact I|exact F]). specialize (T F2 Kn).
    assert (is_subscribed p s2 = true) as Sp2 by (rewrite T2; exact Sp).
    apply (settles_iff _ (heard (CeContent i buf sc1 sc2) s p)) in T; [|intros v; apply (Hh v names eq_refl); auto].
    destruct r2 as [l|e2|u2|]; cbn [fst snd] in *; [|split; [exact Sp2|exact T]|destruct F2..].
    assert (dinv b0 s2) as D2.
    { rewrite T2 in *. eapply dinv_chain; [exact D1|apply T4, D1|]. exact (T3 _ eq_refl). }
    destruct l as [|m0 l].
    + rewrite mbind_ret in *. pose proof (send_sync_did K [] s2) as SS. destruct (send_sync K s2) as [[s3 o3] r3].
      cbn [outs st res fst snd] in *. destruct (SS F) as [_ Di].
      destruct (did_keeps b0 _ _ _ _ p Di D2) as [K1 Sp3]; [intros []|exact Sp2|]. split; [exact Sp3|]. eapply settles_eq; [exact K1|exact T].
    + rewrite mbind_assoc, mbind_emit in *. pose proof (calls_did K sc2 s2) as C1. destruct (calls K sc2 s2) as [[s3 o3] r3] eqn:EC.
      rewrite (mbind_run _ _ _ _ _ _ EC) in F |- *. cbn [outs st res fst snd] in *.
      assert (fine r3) as F3 by (destruct r3; first [exact I|exact F]). destruct (C1 F3) as [-> Di1].
      destruct (did_keeps b0 _ _ _ _ p Di1 D2) as [K1 Sp3]; [apply Nsc; intros; apply in_or_app; auto|exact Sp2|].
      pose proof (send_sync_did K [] s3) as SS. destruct (send_sync K s3) as [[s4 o4] r4].
      cbn [outs st res fst snd] in *. destruct (SS F) as [_ Di2].
      destruct (did_keeps b0 _ _ _ _ p Di2) as [K2 Sp4]; [eapply dinv_did; eauto|intros []|exact Sp3|].
      split; [exact Sp4|]. eapply settles_eq; [rewrite K2; exact K1|exact T].
Qed.

(** ** Runs *)
Lemma settles_trans (X Y Z : N -> Prop) f g h : (forall v, Z v <-> X v \/ Y v) -> settles X f g -> settles Y g h -> settles Z f h.
Proof.
  intros H (A1 & B1 & C1) (A2 & B2 & C2). split; [lia|]. split.
  - intros v Hv. apply H in Hv as [Hv|Hv]; [apply B1 in Hv; lia|auto].
  - destruct C2 as [->|(v & -> & Hv)]; [destruct C1 as [->|(v & -> & Hv)]; [auto|]|]; right; exists v; split; auto; apply H; auto.
Qed.
Lemma ctold_snoc K evs1 evs2 e s o p v : creaches K (evs1 ++ evs2) s o ->
  ctold K evs1 (evs2 ++ [e]) p v <-> ctold K evs1 evs2 p v \/ heard e s p v.
Proof.
  intros R. split.
  - intros (pre & e' & post & s' & o' & E & R' & H). destruct post as [|e2 post _] using rev_ind.
    + apply app_inj_tail in E as [-> ->]. unfold creaches in *. rewrite R in R'. injection R' as <- <-. auto.
    + left. exists pre, e', post, s', o'. change (e' :: post ++ [e2]) with ((e' :: post) ++ [e2]) in E.
      rewrite app_assoc in E. apply app_inj_tail in E as [-> _]. auto.
  - intros [(pre & e' & post & s' & o' & -> & R' & H)|H].
    + exists pre, e', (post ++ [e]), s', o'. rewrite <- app_assoc. auto.
    + exists evs2, e, [], s, o. auto.
Qed.
Lemma crun_order K evs1 s1 o1 p : creaches K evs1 s1 o1 -> is_subscribed p s1 = true -> forall evs2 s2 o2,
  creaches K (evs1 ++ evs2) s2 o2 -> (forall e, In e evs2 -> ~ In (CUnsub p) (calls_of e)) ->
  is_subscribed p s2 = true /\ settles (ctold K evs1 evs2 p) (known s1 p) (known s2 p).
Proof.
  intros R1 Sp evs2. induction evs2 as [|e evs2 IH] using rev_ind; intros s2 o2 R2 N.
  - rewrite app_nil_r in R2. unfold creaches in *. rewrite R1 in R2. injection R2 as <- <-. split; [exact Sp|].
    apply settles_none; [|reflexivity]. intros v ([|] & e & post & s & o & E & _); discriminate.
  - rewrite app_assoc in R2. apply creaches_snoc in R2 as (s & o & o' & r & R & E & -> & F).
    destruct (IH s o R) as [Sp1 T1]; [intros x Hx; apply N, in_or_app; auto|].
    destruct (creaches_inv _ _ _ _ R) as (b0 & _ & D & _).
    pose proof (cstep_order b0 K e s p D) as X. rewrite E in X. cbn [st res fst snd] in X.
    destruct (X F) as [Sp2 T2]; [apply N, in_or_app; right; left; reflexivity|exact Sp1|].
    split; [exact Sp2|]. eapply settles_trans; [|exact T1|exact T2]. intros v. apply (ctold_snoc _ _ _ _ _ _ _ _ R).
Qed.
