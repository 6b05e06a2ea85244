(** C44: exactly when a change is not reported. *)
From Coq Require Import List NArith ZArith Bool Arith Lia Sorted.
From Coq.Strings Require Import Byte.
From Verif Require Import Base BaseFacts Mon MonFacts Iblt Tlv TlvFacts State StateFacts NMap NMapFacts Codec
  Bloom SpecBloom BloomFacts Properties_Bloom Store Producer SpecProducer ProducerFacts Properties_Producer Partial PartialFacts PartialSteps
  Properties_Partial Full FullTrace SpecFull FullFacts FullSafe FullSteps FullData FullRuns Properties_Full Consumer SpecConsumer ConsumerFacts Properties_Consumer
  SpecExchange ExchangeFacts SpecGroup GroupFacts Properties_Exact Throwing SpecThrow ThrowFacts SpecOrder OrderFacts.
Import ListNotations.
Local Open Scope N_scope.

Lemma chain_advance l : forall f g p, report_chain f l g -> seq0 (f p) < seq0 (g p) ->
  exists m, In m l /\ mi_prefix m = p /\ seq0 (f p) < mi_high m.
Proof.
  induction l as [|m l IH]; intros f g p H L; cbn [report_chain] in H.
  - rewrite H in L. lia.
  - destruct H as (_ & Hm & H). destruct (N.lt_decidable (seq0 (f p)) (mi_high m)) as [X|X].
    + destruct (name_eqb p (mi_prefix m)) eqn:E.
      * apply name_eqb_eq in E. exists m. split; [left; reflexivity|]. auto.
      * destruct (IH _ _ p H) as (m' & A & B & C); rewrite ?E; auto. rewrite E in C. exists m'. split; [right; exact A|auto].
    + destruct (name_eqb p (mi_prefix m)) eqn:E.
      * apply name_eqb_eq in E. subst p. destruct (f (mi_prefix m)) as [v|] eqn:Ef; cbn in *; [lia|].
        destruct (IH _ _ (mi_prefix m) H) as (m' & A & B & C); rewrite ?name_eqb_refl; cbn; [lia|].
        rewrite name_eqb_refl in C. cbn in C. exists m'. split; [right; exact A|]. split; [exact B|lia].
      * destruct (IH _ _ p H) as (m' & A & B & C); rewrite ?E; auto. rewrite E in C. exists m'. split; [right; exact A|auto].
Qed.
Lemma good_or_not c : good_name c \/ ~ good_name c.
Proof.
  destruct c as [|x p _] using rev_ind.
  - right. intros (p & v & E & _). destruct p; discriminate.
  - destruct (to_number x) as [v|e|u|] eqn:E; [left; exists p, x; eauto|right; intros (q & y & Eq & w & Ew); apply app_inj_tail in Eq as [_ <-]; congruence..].
Qed.
Lemma bad_or_all names : Forall good_name names \/
  exists a bad b, names = a ++ bad :: b /\ Forall good_name a /\ ~ good_name bad.
Proof.
  induction names as [|c names [IH|(a & bad & b & -> & A & B)]]; [left; constructor|..];
    (destruct (good_or_not c) as [G|G]; [|right; eexists [], _, _; split; [reflexivity|split; [constructor|exact G]]]).
  - left. constructor; auto.
  - right. exists (c :: a), bad, b. split; [reflexivity|]. split; auto.
Qed.
Lemma take_sync_head p x v r s : to_number x = Ok v ->
  take_sync (@cons name (p ++ [x]) r) s =
  (if match nm_find p (c_prefixes s) with None => true | Some cur => cur <? v end then
     (mmod (fun s => cset_prefixes (nm_set p v (c_prefixes s)) s) ;;
      mlet l <- take_sync r;
      mret (mkMissing p (w64 (match nm_find p (c_prefixes s) with Some x => x | None => 0 end + 1)) v 0 :: l)) s
   else take_sync r s).
Proof.
  intros E. cbn [take_sync]. rewrite mbind_lift, name_get_minus_last. cbv beta iota. rewrite mbind_lift, E, name_prefix_back_snoc.
  cbv beta iota zeta. rewrite mbind_get. destruct (match nm_find p (c_prefixes s) with None => true | Some cur => cur <? v end); reflexivity.
Qed.
Lemma take_sync_reaches a : forall s, Forall good_name a ->
  (exists l, res (take_sync a s) = Ok l) /\
  (forall p, seq0 (known s p) <= seq0 (known (st (take_sync a s)) p)) /\
  (forall p v, brings a p v -> v <= seq0 (known (st (take_sync a s)) p)).
Proof.
  induction a as [|c a IH]; intros s F.
  - split; [exists []; reflexivity|]. split; [intros p; apply N.le_refl|]. intros p v (x & [] & _).
  - pose proof (Forall_inv_tail F) as F'. destruct (Forall_inv F) as (p & x & -> & v & Ev). clear F. rewrite (take_sync_head p x v a s Ev).
    assert (forall s2, (forall q, seq0 (known s q) <= seq0 (known s2 q)) -> v <= seq0 (known s2 p) ->
      (forall q, seq0 (known s q) <= seq0 (known (st (take_sync a s2)) q)) /\
      (forall q w, brings ((p ++ [x]) :: a) q w -> w <= seq0 (known (st (take_sync a s2)) q))) as H.
    { intros s2 M V. destruct (IH s2 F') as (_ & M2 & B). split; [intros q; eapply N.le_trans; [apply M|apply M2]|].
      intros q w (y & [E|Hy] & Ew).
      - apply app_inj_tail in E as [<- <-]. rewrite Ev in Ew. injection Ew as <-. eapply N.le_trans; [exact V|apply M2].
      - apply B. exists y. auto. }
    destruct (match nm_find p (c_prefixes s) with None => true | Some cur => cur <? v end) eqn:C.
    + rewrite mbind_mod. set (s1 := cset_prefixes _ s). destruct (IH s1 F') as ([l El] & _).
      assert (st ((mlet l <- take_sync a; mret (mkMissing p (w64 (match nm_find p (c_prefixes s) with Some x => x | None => 0 end + 1)) v 0 :: l)) s1)
        = st (take_sync a s1) /\ exists l', res ((mlet l <- take_sync a; mret (mkMissing p (w64 (match nm_find p (c_prefixes s) with Some x => x | None => 0 end + 1)) v 0 :: l)) s1) = Ok l') as [-> R].
      { unfold mbind. destruct (take_sync a s1) as [[s2 o2] r2]. cbn in El. subst r2. cbn. eauto. }
      split; [exact R|]. apply H.
      * intros q. subst s1. rewrite known_set. destruct (name_eqb q p) eqn:Q; [|lia]. apply name_eqb_eq in Q. subst q. unfold known.
        destruct (nm_find p (c_prefixes s)) as [y|]; cbn; [apply N.ltb_lt in C; lia|lia].
      * subst s1. rewrite known_set, name_eqb_refl. cbn. lia.
    + destruct (IH s F') as (R & _). split; [exact R|]. apply H; [intros; lia|]. unfold known.
      destruct (nm_find p (c_prefixes s)) as [y|]; [|discriminate]. apply N.ltb_ge in C. cbn. lia.
Qed.
Lemma take_sync_until a bad b : forall s, Forall good_name a -> ~ good_name bad ->
  st (take_sync (a ++ bad :: b) s) = st (take_sync a s) /\ forall l, res (take_sync (a ++ bad :: b) s) <> Ok l.
Proof.
  induction a as [|c a IH]; intros s F G.
  - cbn [app take_sync]. rewrite mbind_lift. destruct (name_get_minus bad 1) as [x|e|u|] eqn:E; try (split; [reflexivity|discriminate]).
    rewrite mbind_lift. apply name_split in E. destruct (to_number x) as [v|e|u|] eqn:Ev; try (split; [reflexivity|discriminate]).
    exfalso. apply G. do 2 eexists. split; [exact E|eauto].
  - pose proof (Forall_inv_tail F) as F'. destruct (Forall_inv F) as (p & x & -> & v & Ev). clear F. cbn [app]. rewrite !(take_sync_head p x v _ s Ev).
    destruct (match nm_find p (c_prefixes s) with None => true | Some cur => cur <? v end); [|apply IH; auto].
    rewrite !mbind_mod. set (s1 := cset_prefixes _ s). destruct (IH s1 F' G) as [A B].
    unfold mbind. destruct (take_sync a s1) as [[s2 o2] r2]. destruct (take_sync (a ++ bad :: b) s1) as [[s3 o3] r3].
    cbn in A, B. subst s3. destruct r3 as [l|e|u|]; [destruct (B l eq_refl)|destruct r2; (split; [reflexivity|discriminate])..].
Qed.

(** * C44 *)
(** a sync reply advances the number of [p] and the application is not told, exactly if the reply holds a name that
    does not end in a number, and before that a higher number for [p] *)
Theorem C44_consumer_unreported_exactly_when : forall K evs s o i n buf names s' o' r p,
  creaches K evs s o -> cfetch i (c_live s) = Some (KSync, n) -> is_nack (c_type s) = false ->
  state_of_buffer buf = Ok names -> c_step K (CeContent i buf [] []) s = (s', o', r) ->
  ((seq0 (seq_of p s) < seq0 (seq_of p s') /\ forall l, ~ In (CoUpdate l) o') <->
   exists a bad b v, names = a ++ bad :: b /\ Forall good_name a /\ ~ good_name bad /\
     brings a p v /\ seq0 (seq_of p s) < v).
Proof.
  intros K evs s o i n buf names s' o' r p _ Hf Hn Hb E. cbn [c_step] in E. rewrite mbind_get, Hf in E.
  unfold finish in E. rewrite mbind_mod, Hn in E. unfold on_csync_data in E. rewrite mbind_mod, mbind_lift, Hb in E.
  set (s1 := cset_iblt _ _) in E. assert (forall q, known s1 q = seq_of q s) as K1 by reflexivity. clearbody s1.
  assert (forall s2, c_prefixes (st (send_sync K s2)) = c_prefixes s2 /\ forall l, ~ In (CoUpdate l) (outs (send_sync K s2))) as SS.
  { intros s2. rewrite send_sync_eq. destruct (c_iblt s2); [split; [reflexivity|intros l []]|].
    destruct (append_bloom _ _); cbn [st outs fst snd]; try (split; [reflexivity|intros l0 []]).
    - split; [destruct (c_sync s2); reflexivity|]. intros l0 [X|[]]. discriminate. }
  destruct (bad_or_all names) as [G|(a & bad & b & -> & A & B)].
  - split.
    + intros [L NU]. exfalso. destruct (take_sync_reaches names s1 G) as ([l El] & _).
      destruct (take_sync_inv names s1) as (T1 & _ & T3 & _). specialize (T3 l El).
      destruct (take_sync names s1) as [[s2 o2] r2] eqn:Et. cbn [st outs res fst snd] in *. subst r2 o2.
      unfold mbind at 1 in E. rewrite Et in E. cbn [app] in E.
      destruct (SS s2) as [P2 _].
      destruct l as [|m l].
      * rewrite mbind_ret in E. destruct (send_sync K s2) as [[s3 o3] r3]. injection E as <- _ _. cbn [st fst] in P2.
        unfold seq_of in L. rewrite P2 in L. fold (known s2 p) in L. cbn [report_chain] in T3. rewrite T3, K1 in L. unfold seq_of in L. lia.
      * unfold memit at 1, calls, mret, mbind in E. cbn [app] in E. destruct (send_sync K s2) as [[s3 o3] r3].
        injection E as _ <- _. apply (NU (m :: l)). left. reflexivity.
    + intros (a & bad & b & v & -> & _ & B & _). exfalso. apply B. apply Forall_app in G as [_ G]. inversion G; auto.
  - destruct (take_sync_until a bad b s1 A B) as [T1 T2]. destruct (take_sync_inv (a ++ bad :: b) s1) as (T3 & _).
    unfold mbind at 1 in E. destruct (take_sync (a ++ bad :: b) s1) as [[s2 o2] r2]. cbn [st outs res fst snd] in *. subst o2.
    assert (s' = s2 /\ o' = []) as [-> ->].
    { destruct r2 as [l|e|u|]; [destruct (T2 l eq_refl)|injection E as <- <- _; auto..]. }
    clear E T2. destruct (take_sync_inv a s1) as (_ & _ & _ & l & C & D). rewrite <- T1 in C.
    destruct (take_sync_reaches a s1 A) as (_ & _ & M). rewrite <- T1 in M. split.
    + intros [L _]. change (seq_of p s2) with (known s2 p) in L. rewrite <- K1 in L |- *.
      destruct (chain_advance l _ _ p C L) as (m & Hm & <- & Lm). rewrite Forall_forall in D.
      exists a, bad, b, (mi_high m). split; [reflexivity|]. split; [exact A|]. split; [exact B|]. split; [apply D; exact Hm|exact Lm].
    + intros (a' & bad' & b' & v & Eq & A' & B' & Br & Lv). split; [|intros l0 []].
      assert (a' = a) as ->.
      { clear - Eq A A' B B'. revert a' A' Eq. induction a as [|c a IH]; intros [|c' a'] A' Eq; cbn in Eq; auto.
        - injection Eq as -> _. inversion A'; subst. contradiction.
        - injection Eq as <- _. inversion A; subst. contradiction.
        - injection Eq as <- Eq. inversion A; inversion A'; subst. f_equal. apply IH; auto. }
      eapply N.lt_le_trans; [exact Lv|]. exact (M p v Br).
Qed.
Print Assumptions C44_consumer_unreported_exactly_when.

Definition s_44 : cs := Eval vm_compute in st (c_step Kc (CeContent 1 (encode_names [append_number pa 7; [gen [x70]; gen [x61; x62; x63]]]) [] []) s_c2).
Example C44_consumer_unreported_example : exists n, creaches Kc evs_c2 s_c2 o_c2 /\
  cfetch 1 (c_live s_c2) = Some (KSync, n) /\ is_nack (c_type s_c2) = false /\
  state_of_buffer (encode_names [append_number pa 7; [gen [x70]; gen [x61; x62; x63]]]) =
    Ok [append_number pa 7; [gen [x70]; gen [x61; x62; x63]]] /\
  (exists x, c_step Kc (CeContent 1 (encode_names [append_number pa 7; [gen [x70]; gen [x61; x62; x63]]]) [] []) s_c2 = (s_44, [], Throw x)) /\
  seq0 (seq_of pa s_c2) < seq0 (seq_of pa s_44).
Proof.
  eexists. split; [exact reach_c2|]. split; [vm_compute; reflexivity|]. split; [reflexivity|]. split; [vm_compute; reflexivity|].
  split; [eexists; vm_compute; reflexivity|vm_compute; reflexivity].
Qed.

(** the same for full-sync nodes ([first_bad names c]: [c] is the first name that does not end in a number; [says names
    p v]: a name of the list that comes before any such name gives [p] the number [v]) *)
Lemma fold_advance p l : forall c, Forall (fun o => match o with CAdd _ | CUpdate _ _ => True | _ => False end) l ->
  seq0 c < seq0 (fold_left (seq_step p) l c) -> exists w, In (CUpdate p w) l /\ seq0 c < w.
Proof.
  induction l as [|o l IH]; intros c F L; cbn [fold_left] in L; [lia|].
  pose proof (Forall_inv_tail F) as F'. apply Forall_inv in F.
  destruct (N.lt_decidable (seq0 (seq_step p c o)) (seq0 (fold_left (seq_step p) l (seq_step p c o)))) as [X|X].
  - destruct (IH _ F' X) as (w & A & B). destruct (N.lt_decidable (seq0 c) w) as [Y|Y]; [exists w; split; [right; exact A|exact Y]|].
    exfalso. assert (seq0 c <= seq0 (seq_step p c o)); [|lia].
    destruct o as [q|q|q w'|q w']; try contradiction; cbn [seq_step]; (destruct (name_eqb p q); [|lia]); destruct c; cbn; lia.
  - destruct o as [q|q|q w|q w]; try contradiction; cbn [seq_step] in X, L; (destruct (name_eqb p q) eqn:E; [|contradiction]).
    + destruct c; cbn in X, L; [contradiction|]. exfalso. apply X. exact L.
    + apply name_eqb_eq in E. subst q. exists w. split; [left; reflexivity|]. destruct c as [v|]; cbn in *; [|contradiction].
      destruct (N.max_spec w v) as [[_ M]|[_ M]]; rewrite M in *; [contradiction|lia].
Qed.
Theorem C44_unreported_exactly_when : forall K sys evs s o i n buf names s' o' r p,
  schemes_ok K -> uri_ok K -> reaches K sys evs s o -> fetch_of i (f_live s) = Some n -> content_names K buf names ->
  fp_step K (FeContent i buf []) s = (s', o', r) -> r = Ok tt \/ (exists x, r = Throw x) ->
  ((seq0 (get_seq p (f_core s)) < seq0 (get_seq p (f_core s')) /\ no_report o') <->
   exists c v, first_bad names c /\ says names p v /\ seq0 (get_seq p (f_core s)) < v).
Proof.
  intros K sys evs s o i n buf names s' o' r p Sk Uk R Hl Hc E Hr.
  destruct (C43_full_ends_badly_exactly_when K sys evs s o i buf [] n Sk Uk R Hl) as (X1 & _ & X3). rewrite E in X1, X3. cbn [res snd] in X1, X3.
  assert (~ ibf_fails r) as Nf by (intros [Y|Y]; destruct Hr as [->|[x ->]]; discriminate).
  assert (forall c, first_bad names c -> exists s0, f_core s0 = f_core s /\ pfx_ok (k_prefixes (f_core s0)) /\
    take_updates names s0 = (s', o', match r with Throw x => Throw x | _ => Hang end) /\ exists x, r = Throw x) as Run.
  { intros c Hb. specialize (X3 names c Hc Hb Nf).
    assert (exists x, r = Throw x) as [x ->] by (destruct c; [destruct Hr as [->|[x ->]]; discriminate|exact X3]).
    pose proof E as E'. cbn [fp_step] in E'. rewrite mbind_get, Hl, mbind_mod in E'. unfold on_sync_data, delete_pending in E'. rewrite mbind_mod in E'.
    unfold content_names in Hc. rewrite Hc in E'. set (s0 := fset_pending _ _) in E'. exists s0. split; [reflexivity|].
    split; [exact (reaches_pfx _ _ _ _ _ R)|]. split; [|eauto].
    destruct (take_bad names c Hb s0) as [B|B]; unfold mbind at 1 in E'; destruct (take_updates names s0) as [[s1 o1] r1]; cbn [res snd] in B.
    - unfold bad_end in B. destruct c as [|y c]; [subst r1; discriminate|]. destruct B as [y' ->]. injection E' as <- <- <-. reflexivity.
    - destruct B as [->| ->]; discriminate. }
  split.
  - intros [L NU]. destruct Hr as [->|Hx].
    + exfalso. destruct (C44_changes_are_reported_partial K sys evs s o i buf [] s' o' R E) as [[_ Y]|(pre & l & post & k & -> & _)].
      * rewrite Y in L. lia.
      * apply Forall_app in NU as [_ NU]. apply Forall_inv in NU. apply (NU l). reflexivity.
    + destruct (X1 Hx) as (names' & c & Hc' & Hb & _). unfold content_names in Hc, Hc'. rewrite Hc in Hc'. injection Hc' as <-.
      destruct (Run c Hb) as (s0 & Es & Hp & T & _).
      pose proof (take_said names s0) as Fs. rewrite T in Fs. unfold outs in Fs. cbn [fst snd] in Fs.
      assert (core_rel s0 o' s') as R1.
      { pose proof (tr_take K (fun _ => True) core_rel (core_rel_closed _) (fun _ => I) (fun _ _ _ => I) names s0) as Y.
        unfold tr in Y. rewrite T in Y. exact Y. }
      pose proof (GroupFacts.take_from names s0) as Fo. rewrite T in Fo. unfold outs in Fo. cbn [fst snd] in Fo.
      rewrite <- Es in L |- *.
      rewrite (get_seq_run p (ops_of o') (f_core s0) (f_core s')) in L; [|exact Hp| |exact R1].
      2:{ eapply Forall_impl; [|exact Fo]. intros [| | |]; simpl; tauto. }
      destruct (fold_advance p (ops_of o') (get_seq p (f_core s0))) as (w & A & B); [|exact L|].
      { eapply Forall_impl; [|exact Fs]. intros [| | |]; cbn; auto. }
      exists c, w. split; [exact Hb|]. split; [|exact B]. rewrite Forall_forall in Fs. exact (Fs _ A).
  - intros (c & v & Hb & Hs & Lv). destruct (Run c Hb) as (s0 & Es & Hp & T & x & ->). rewrite <- Es in Lv |- *. split.
    + eapply N.lt_le_trans; [exact Lv|]. pose proof (take_holds K names s0 p v Hp Hs) as H. rewrite T in H. cbn [res st fst snd] in H.
      apply H. right. eauto.
    + destruct (take_inv names s0 s' o' _ Hp T) as (_ & Oo & _). eapply Forall_impl; [|exact Oo]. intros y [z ->]. discriminate.
Qed.
Print Assumptions C44_unreported_exactly_when.
Definition s_44f : fp := Eval vm_compute in fst (full_after Kf []).
Definition o_44f : list fout := Eval vm_compute in snd (full_after Kf []).
Example C44_unreported_example : exists n names c, schemes_ok Kf /\ uri_ok Kf /\ reaches Kf 0 [] s_44f o_44f /\
  fetch_of 0 (f_live s_44f) = Some n /\ content_names Kf torn_content names /\
  (exists x, res (fp_step Kf (FeContent 0 torn_content []) s_44f) = Throw x) /\
  first_bad names c /\ says names pa 4 /\ seq0 (get_seq pa (f_core s_44f)) < 4.
Proof.
  eexists _, _, _. split; [apply Kf_ok|]. split; [apply Kf_ok|]. split; [split; [constructor|vm_compute; reflexivity]|].
  split; [reflexivity|]. split; [vm_compute; reflexivity|]. split; [eexists; vm_compute; reflexivity|].
  split; [|split; [|vm_compute; reflexivity]].
  - exists [append_number pa 4]. eexists. split; [reflexivity|]. split.
    + constructor; [|constructor]. do 2 eexists. split; [reflexivity|eexists; vm_compute; reflexivity].
    + intros (q & v & Eq & w & Ew). destruct q as [|a [|b [|d q]]]; try discriminate. injection Eq as _ <-. vm_compute in Ew. discriminate.
  - exists []. do 2 eexists. split; [reflexivity|]. split; [vm_compute; reflexivity|constructor].
Qed.
