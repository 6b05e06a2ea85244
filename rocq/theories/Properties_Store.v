(** Property theorems about publishing segmented data (C25-C28). *)
From Coq Require Import List NArith ZArith Bool Lia Arith.
From Coq.Strings Require Import Byte.
From Verif Require Import Base BaseFacts Tlv TlvFacts Store StoreFacts SpecStore.
Import ListNotations.

Lemma segment_SegmentsOf E k vn b f : SegmentsOf vn b (segment E k vn b f).
Proof.
  pose proof (nseg_bounds b) as (H0 & _ & _). split; [|split].
  - intros H. apply (f_equal (@length data)) in H. rewrite segment_length in H. simpl in H. lia.
  - apply segment_content.
  - intros i d H. assert (i < nseg b) as Hi.
    { rewrite <- (segment_length E k vn b f). apply nth_error_Some. congruence. }
    rewrite segment_nth in H by auto. injection H as <-. rewrite segment_length.
    split; [reflexivity|split; [reflexivity|split; [reflexivity|]]].
    cbn [d_content seg_data]. pose proof (firstn_le_length SEG_SIZE (skipn (i * SEG_SIZE) b)) as L.
    change 4400%N with (N.of_nat SEG_SIZE). lia.
Qed.

(** what the store holds after a publication that nothing shadows *)
Lemma publish_store E now iname dname buf fresh p p' r :
  publish E now iname dname buf fresh p = (p', r) ->
  0 < pb_limit p -> length (pb_store p) <= pb_limit p ->
  (N.of_nat (nseg buf) <= two64)%N ->
  unshadowed (next_version E p dname) p ->
  let segs := segment E (pb_signed p) (next_version E p dname) buf fresh in
  pb_store p' = skipn (length (pb_store p) + length segs - pb_limit p) (pb_store p ++ segs) /\
  r = put_segment iname segs.
Proof.
  intros H Hl Hs Hb Hu segs. unfold publish in H. injection H as <- <-. split; [|reflexivity].
  rewrite insert_segments_eq. cbn [pb_store pb_limit]. apply store_insert_many; auto.
  - apply segment_full_NoDup. exact Hb.
  - intros d e Hd He Hq. apply segment_In in Hd as (i & Hi & ->).
    specialize (Hu e He). rewrite Hq in Hu. unfold full_name in Hu. cbn [d_name seg_data] in Hu.
    unfold append_segment in Hu. rewrite <- app_assoc in Hu.
    unfold append_version, next_version in Hu. rewrite is_prefix_app in Hu. discriminate.
Qed.

Lemma publish_lookup E now iname dname buf fresh p p' r :
  publish E now iname dname buf fresh p = (p', r) ->
  0 < pb_limit p -> length (pb_store p) <= pb_limit p ->
  (N.of_nat (length buf) < two64)%N ->
  unshadowed (next_version E p dname) p ->
  forall i, i < nseg buf ->
  reply_from_store (append_segment (next_version E p dname) (N.of_nat i)) p' =
    if Nat.leb (nseg buf - pb_limit p) i
    then Some (seg_data E (pb_signed p) (next_version E p dname) buf fresh i)
    else None.
Proof.
  intros H Hl Hs Hb Hu i Hi.
  assert (Hn : (N.of_nat (nseg buf) <= two64)%N).
  { pose proof (nseg_bounds buf) as (_ & _ & Hz). pose proof SEG_SIZE_pos.
    destruct buf as [|b buf]; [discriminate|].
    assert (nseg (b :: buf) <= length (b :: buf)); [|lia].
    assert (b :: buf <> []) as Hne by discriminate. specialize (Hz Hne). nia. }
  destruct (publish_store _ _ _ _ _ _ _ _ _ H Hl Hs Hn Hu) as (Es & _).
  set (segs := segment E (pb_signed p) (next_version E p dname) buf fresh) in *.
  assert (Ls : length segs = nseg buf) by apply segment_length.
  assert (Hpre : forall e, In e (pb_store p) ->
    is_prefix (append_segment (next_version E p dname) (N.of_nat i)) (full_name e) = false).
  { intros e He. specialize (Hu e He).
    destruct (is_prefix (append_segment _ _) (full_name e)) eqn:P; auto.
    apply is_prefix_iff in P as (z & P). rewrite P in Hu. unfold append_segment in Hu.
    rewrite <- app_assoc, is_prefix_app in Hu. discriminate. }
  assert (Hone : forall j, j < nseg buf ->
    is_prefix (append_segment (next_version E p dname) (N.of_nat i))
      (full_name (seg_data E (pb_signed p) (next_version E p dname) buf fresh j)) = true -> j = i).
  { intros j Hj P. symmetry.
    eapply (seg_name_prefix _ i (seg_data E (pb_signed p) (next_version E p dname) buf fresh j));
      [| |unfold full_name; reflexivity|exact P]; lia. }
  unfold reply_from_store. rewrite Es.
  destruct (Nat.leb_spec (nseg buf - pb_limit p) i) as [Hle|Hgt].
  - apply store_find_only.
    + apply (nth_error_In _ (length (pb_store p) + i - (length (pb_store p) + length segs - pb_limit p))).
      rewrite Ls.
      assert (forall k (l : list data) j, nth_error (skipn k l) j = nth_error l (k + j)) as Hsk.
      { induction k as [|k IH]; intros l j; auto. destruct l; simpl; [destruct j; reflexivity|apply IH]. }
      rewrite Hsk, nth_error_app2 by lia.
      match goal with |- nth_error _ ?x = _ => replace x with i by lia end.
      apply segment_nth. exact Hi.
    + exact (full_name_prefix (seg_data E (pb_signed p) (next_version E p dname) buf fresh i)).
    + intros e He P.
      assert (In e (pb_store p ++ segs)) as He'.
      { rewrite <- (firstn_skipn (length (pb_store p) + length segs - pb_limit p)).
        apply in_or_app. auto. }
      apply in_app_or in He' as [He'|He']; [rewrite Hpre in P by auto; discriminate|].
      apply segment_In in He' as (j & Hj & ->). rewrite (Hone j); auto.
  - apply store_find_None. intros e He.
    destruct (is_prefix (append_segment _ _) (full_name e)) eqn:P; auto. exfalso.
    rewrite skipn_app in He. rewrite skipn_all2 in He by lia. cbn [app] in He.
    assert (exists k, nseg buf - pb_limit p <= k < nseg buf /\
             e = seg_data E (pb_signed p) (next_version E p dname) buf fresh k) as (k & Hk & ->).
    { apply In_nth_error in He as (j & Hj).
      assert (forall k (l : list data) j, nth_error (skipn k l) j = nth_error l (k + j)) as Hsk.
      { clear. induction k as [|k IH]; intros l j; auto. destruct l; simpl; [destruct j; reflexivity|apply IH]. }
      rewrite Hsk in Hj.
      match type of Hj with nth_error _ ?x = _ => exists x end.
      assert (length (pb_store p) + length segs - pb_limit p - length (pb_store p) + j < length segs)
        as Hlt by (apply nth_error_Some; congruence).
      split; [lia|]. unfold segs in Hj at 1. rewrite segment_nth in Hj by lia. congruence. }
    rewrite (Hone k) in Hk; auto; lia.
Qed.

(** * C25 *)
Theorem C25_published_content_fetchable : forall E now iname dname buf fresh p p' r,
  publish E now iname dname buf fresh p = (p', r) ->
  0 < pb_limit p -> length (pb_store p) <= pb_limit p ->
  (N.of_nat (length buf) < two64)%N ->
  (N.of_nat (length buf) <= N.of_nat (pb_limit p) * 4400)%N ->
  unshadowed (next_version E p dname) p ->
  exists segs, SegmentsOf (next_version E p dname) buf segs /\
    forall d, In d segs -> reply_from_store (d_name d) p' = Some d.
Proof.
  intros E now iname dname buf fresh p p' r H Hl Hs Hb Hc Hu.
  exists (segment E (pb_signed p) (next_version E p dname) buf fresh).
  split; [apply segment_SegmentsOf|]. intros d Hd. apply segment_In in Hd as (i & Hi & ->).
  cbn [d_name seg_data]. rewrite (publish_lookup _ _ _ _ _ _ _ _ _ H Hl Hs Hb Hu i Hi).
  pose proof (nseg_bounds buf) as (H0 & _ & Hz). pose proof SEG_SIZE_pos.
  assert (Hseg : nseg buf <= pb_limit p).
  { destruct buf as [|b buf]; [simpl; lia|].
    assert (b :: buf <> []) as Hne by discriminate. specialize (Hz Hne).
    change 4400%N with (N.of_nat SEG_SIZE) in Hc.
    assert (length (b :: buf) <= pb_limit p * SEG_SIZE) by lia. nia. }
  replace (nseg buf - pb_limit p) with 0 by lia. reflexivity.
Qed.
Print Assumptions C25_published_content_fetchable.

Definition env_example : env :=
  mkEnv (fun k => N.of_nat (1000 + k)) (fun _ => []) (fun _ => 100%N) (fun n => Ok n).
Definition gen (b : byte) : comp := mkComp TYPE_GENERIC [b].

(** two publications of a two-segment content under the same name: the second is not shadowed *)
Example C25_example :
  let p1 := fst (publish env_example 0 [gen x61] [gen x61] (repeat x00 (SEG_SIZE + 1)) 1000 pub_new) in
  length (pb_store p1) = 2 /\ unshadowed (next_version env_example p1 [gen x61]) p1 /\
  0 < pb_limit p1 /\ length (pb_store p1) <= pb_limit p1.
Proof.
  vm_compute pb_store. split; [reflexivity|split; [|vm_compute; split; lia]].
  intros e He. vm_compute in He. destruct He as [<-|[<-|[]]]; vm_compute; reflexivity.
Qed.

(** * C26 *)
(** what does hold for every size: exactly the last [limit] segments can be fetched *)
Theorem C26_any_size_partial : forall E now iname dname buf fresh p p' r,
  publish E now iname dname buf fresh p = (p', r) ->
  0 < pb_limit p -> length (pb_store p) <= pb_limit p ->
  (N.of_nat (length buf) < two64)%N ->
  unshadowed (next_version E p dname) p ->
  exists segs, SegmentsOf (next_version E p dname) buf segs /\
    forall i d, nth_error segs i = Some d ->
      reply_from_store (d_name d) p' =
        if Nat.leb (length segs - pb_limit p) i then Some d else None.
Proof.
  intros E now iname dname buf fresh p p' r H Hl Hs Hb Hu.
  exists (segment E (pb_signed p) (next_version E p dname) buf fresh).
  split; [apply segment_SegmentsOf|]. intros i d Hd. rewrite segment_length.
  assert (i < nseg buf) as Hi.
  { rewrite <- (segment_length E (pb_signed p) (next_version E p dname) buf fresh).
    apply nth_error_Some. congruence. }
  rewrite segment_nth in Hd by auto. injection Hd as <-. cbn [d_name seg_data].
  apply (publish_lookup _ _ _ _ _ _ _ _ _ H Hl Hs Hb Hu i Hi).
Qed.
Print Assumptions C26_any_size_partial.

(** content of 440001 bytes: the first segment cannot be fetched right after publishing *)
Theorem C26_any_size_refuted : forall E now iname dname fresh buf,
  length buf = 100 * SEG_SIZE + 1 ->
  let p' := fst (publish E now iname dname buf fresh pub_new) in
  reply_from_store (append_segment (next_version E pub_new dname) 0) p' = None.
Proof.
  intros E now iname dname fresh buf Hlen.
  destruct (publish E now iname dname buf fresh pub_new) as [p' r] eqn:H. cbn [fst].
  assert (Hn : nseg buf = 101).
  { pose proof (nseg_bounds buf) as (H0 & H1 & Hz). pose proof SEG_SIZE_pos.
    clear H. set (k := SEG_SIZE) in *. clearbody k.
    assert (buf <> []) as Hne by (intros ->; cbn [length] in Hlen; lia). specialize (Hz Hne).
    assert (nseg buf - 1 < 101) by nia. assert (100 < nseg buf) by nia. lia. }
  change 0%N with (N.of_nat 0).
  rewrite (publish_lookup _ _ _ _ _ _ _ _ _ H).
  - rewrite Hn. reflexivity.
  - cbn. unfold IMS_LIMIT. lia.
  - cbn. lia.
  - rewrite Hlen. replace (N.of_nat (100 * SEG_SIZE + 1)) with 440001%N; [reflexivity|].
    change SEG_SIZE with (N.to_nat 4400). lia.
  - intros e [].
  - lia.
Qed.
Print Assumptions C26_any_size_refuted.

Example C26_example : length (repeat x00 (100 * SEG_SIZE + 1)) = 100 * SEG_SIZE + 1.
Proof. apply repeat_length. Qed.

(** * C28 *)
Theorem C28_at_most_one_segment_put : forall E now pre c dname buf fresh p p' r,
  publish E now (pre ++ [c]) dname buf fresh p = (p', r) ->
  exists segs, SegmentsOf (next_version E p dname) buf segs /\
    (is_segment c = false -> exists d, nth_error segs 0 = Some d /\ r = Ok [d]) /\
    (forall k d, to_segment c = Ok k -> nth_error segs (N.to_nat k) = Some d -> r = Ok [d]) /\
    (forall k, to_segment c = Ok k -> (N.of_nat (length segs) <= k)%N -> r = Ok []).
Proof.
  intros E now pre c dname buf fresh p p' r H.
  exists (segment E (pb_signed p) (next_version E p dname) buf fresh).
  split; [apply segment_SegmentsOf|].
  unfold publish in H. injection H as _ H.
  unfold put_segment in H. rewrite name_get_back_snoc in H. cbn [obind] in H.
  set (segs := segment E (pb_signed p) (next_version E p dname) buf fresh) in *.
  fold (next_version E p dname) in H. change (append_version dname _) with (next_version E p dname) in H.
  fold segs in H.
  split; [|split].
  - intros Hc. rewrite Hc in H. cbn [obind] in H.
    assert (0 < nseg buf) as Hn by apply nseg_bounds.
    assert (length segs = nseg buf) as Ls by apply segment_length.
    exists (seg_data E (pb_signed p) (next_version E p dname) buf fresh 0).
    split; [apply segment_nth; auto|]. rewrite <- H.
    destruct (N.ltb_spec 0 (N.of_nat (length segs))); [|lia].
    cbn [N.to_nat]. unfold segs. rewrite segment_nth by auto. reflexivity.
  - intros k d Hk Hd. assert (is_segment c = true) as Hc.
    { unfold to_segment in Hk. destruct (is_segment c); [auto|discriminate]. }
    rewrite Hc, Hk in H. cbn [obind] in H. rewrite <- H, Hd.
    assert (N.to_nat k < length segs) by (apply nth_error_Some; congruence).
    destruct (N.ltb_spec k (N.of_nat (length segs))); [reflexivity|lia].
  - intros k Hk Hle. assert (is_segment c = true) as Hc.
    { unfold to_segment in Hk. destruct (is_segment c); [auto|discriminate]. }
    rewrite Hc, Hk in H. cbn [obind] in H. rewrite <- H.
    destruct (N.ltb_spec k (N.of_nat (length segs))); [lia|reflexivity].
Qed.
Print Assumptions C28_at_most_one_segment_put.

(** no operation throws unless a publication is asked for by an empty name; an operation puts at most
    one packet on the face, and only a publication or a look-up that finds a matching packet does *)
Theorem C28_other_operations : forall E w o,
  (forall i d b f, o = PPublish i d b f -> i <> []) ->
  exists l, snd (pstep E w o) = Ok l /\ (length l <= 1)%nat /\
    forall x, In x l -> (exists i d b f, o = PPublish i d b f) \/
      (exists i, o = PLookup i /\ In x (pb_store (pw_pub w)) /\ is_prefix i (full_name x) = true).
Proof.
  intros E w o Ho. destruct o as [i d b f|i|dt|i]; cbn [pstep].
  - destruct (publish E (pw_now w) i d b f (pw_pub w)) as [p r] eqn:P. cbn [snd].
    destruct (exists_last (Ho i d b f eq_refl)) as (pre & c & ->).
    destruct (C28_at_most_one_segment_put _ _ _ _ _ _ _ _ _ _ P) as (segs & _ & A & B & C).
    assert (forall x, r = Ok [x] -> exists l, r = Ok l /\ (length l <= 1)%nat /\ forall y, In y l ->
      (exists i0 d0 b0 f0, PPublish (pre ++ [c]) d b f = PPublish i0 d0 b0 f0) \/
      (exists i0, PPublish (pre ++ [c]) d b f = PLookup i0 /\ In y (pb_store (pw_pub w)) /\ is_prefix i0 (full_name y) = true)) as G.
    { intros x ->. exists [x]. split; [reflexivity|]. split; [cbn; lia|]. intros y _. left. eexists _, _, _, _. reflexivity. }
    destruct (is_segment c) eqn:S.
    + destruct (to_segment c) as [k|e|u|] eqn:T; try (unfold to_segment in T; rewrite S in T; discriminate).
      destruct (nth_error segs (N.to_nat k)) as [x|] eqn:N; [apply (G x); eauto|].
      apply nth_error_None in N. exists []. split; [apply (C k); [reflexivity|lia]|]. split; [cbn; lia|intros y []].
    + destruct (A eq_refl) as (x & _ & H). apply (G x H).
  - eexists. split; [reflexivity|]. destruct (reply_from_store i (pw_pub w)) as [x|] eqn:R; [|split; [cbn; lia|intros y []]].
    split; [cbn; lia|]. intros y [<-|[]]. right. exists i. split; [reflexivity|]. unfold reply_from_store in R.
    apply store_find_Some in R as (A & B & _). auto.
  - exists []. split; [reflexivity|]. split; [cbn; lia|intros y []].
  - exists []. split; [reflexivity|]. split; [cbn; lia|intros y []].
Qed.
Print Assumptions C28_other_operations.

Example C28_example :
  to_segment (number_comp TYPE_SEGMENT 1) = Ok 1%N /\ is_segment (gen x61) = false /\
  nseg (repeat x00 (SEG_SIZE + 1)) = 2.
Proof. split; [reflexivity|split; vm_compute; reflexivity]. Qed.

(** * C27 *)
(** every stored packet has an erase event, and erase events come from publications *)
Definition ims_ok (limit : nat) (pubs : list (N * N)) (w : pworld) : Prop :=
  pb_limit (pw_pub w) = limit /\
  length (pb_store (pw_pub w)) <= limit /\
  (forall d, In d (pb_store (pw_pub w)) -> exists dl, In (dl, d_name d) (pb_timers (pw_pub w))) /\
  (forall dl n, In (dl, n) (pb_timers (pw_pub w)) -> exists t f, In (t, f) pubs /\ dl = (t + f)%N).

Lemma firstn_skipn_In {A} i (l : list A) x :
  In x (firstn i l ++ skipn (S i) l) -> In x l.
Proof.
  intros H. apply in_app_or in H as [H|H].
  - rewrite <- (firstn_skipn i l). apply in_or_app. auto.
  - rewrite <- (firstn_skipn (S i) l). apply in_or_app. auto.
Qed.
Lemma remove_nth_In {A} i (l : list A) x y :
  nth_error l i = Some y -> In x l -> In x (firstn i l ++ skipn (S i) l) \/ x = y.
Proof.
  revert i; induction l as [|a l IH]; intros [|i] Hn Hx; simpl in *; try discriminate.
  - injection Hn as ->. destruct Hx; auto.
  - destruct Hx as [->|Hx]; auto. destruct (IH i Hn Hx); auto.
Qed.

Lemma ims_step E limit pubs w o :
  0 < limit -> ims_ok limit pubs w ->
  ims_ok limit (pubs ++ publications (pw_now w) [o]) (fst (pstep E w o)).
Proof.
  intros Hl (H1 & H2 & H3 & H4). destruct o as [i d b f|i|dt|i]; cbn [pstep publications].
  - unfold publish. cbn [fst pw_pub]. rewrite insert_segments_eq. cbn [pb_store pb_limit pb_timers].
    split; [exact H1|split; [rewrite H1; apply fold_insert_length; auto|split]].
    + intros x Hx. cbn [pb_store pb_timers pw_pub] in *. apply fold_insert_In in Hx as [Hx|Hx].
      * destruct (H3 x Hx) as (dl & Hd). exists dl. apply in_or_app. auto.
      * eexists. apply in_or_app. right. apply in_map_iff. exists x. split; [reflexivity|exact Hx].
    + intros dl n Hd. cbn [pb_timers pw_pub] in Hd. apply in_app_or in Hd as [Hd|Hd].
      * destruct (H4 dl n Hd) as (t & g & Hp & ->). exists t, g. split; auto. apply in_or_app; auto.
      * apply in_map_iff in Hd as (x & Hd & _). injection Hd as <- <-.
        exists (pw_now w), f. split; auto. apply in_or_app. right. left. reflexivity.
  - rewrite app_nil_r. split; [|split; [|split]]; auto.
  - rewrite app_nil_r. split; [|split; [|split]]; auto.
  - rewrite app_nil_r. cbn [fst]. unfold ims_ok, pub_fire. cbn [pw_pub].
    destruct (nth_error (pb_timers (pw_pub w)) i) as [[dl n]|] eqn:En; [|split; auto].
    destruct (N.leb_spec dl (pw_now w)); [|split; auto].
    cbn [pb_store pb_limit pb_timers]. split; [auto|split; [|split]].
    + unfold store_erase.
      assert (forall (f : data -> bool) l, length (filter f l) <= length l) as Hf.
      { intros g l. induction l as [|a l IH]; simpl; auto. destruct (g a); simpl; lia. }
      eapply Nat.le_trans; [apply Hf|exact H2].
    + intros x Hx. unfold store_erase in Hx. apply filter_In in Hx as (Hx & Hp).
      destruct (H3 x Hx) as (dl' & Hd). exists dl'.
      destruct (remove_nth_In _ _ _ _ En Hd) as [Hr|Hr]; auto.
      injection Hr as _ Hr. rewrite <- Hr, is_prefix_refl in Hp. discriminate.
    + intros dl' n' Hd. apply H4 with n'. eapply firstn_skipn_In; eauto.
Qed.

Lemma pstep_now E w o : pw_now (fst (pstep E w o)) =
  match o with PAdvance dt => (pw_now w + dt)%N | _ => pw_now w end.
Proof. destruct o; reflexivity. Qed.

Lemma ims_run E limit ops : forall pubs w,
  0 < limit -> ims_ok limit pubs w ->
  ims_ok limit (pubs ++ publications (pw_now w) ops) (prun E w ops).
Proof.
  induction ops as [|o ops IH]; intros pubs w Hl H.
  - cbn. rewrite app_nil_r. exact H.
  - change (prun E w (o :: ops)) with (prun E (fst (pstep E w o)) ops).
    pose proof (IH _ _ Hl (ims_step E limit pubs w o Hl H)) as HI.
    rewrite <- app_assoc in HI.
    assert (publications (pw_now w) [o] ++ publications (pw_now (fst (pstep E w o))) ops =
            publications (pw_now w) (o :: ops)) as Hq.
    { rewrite pstep_now. destruct o; reflexivity. }
    rewrite Hq in HI. exact HI.
Qed.

Lemma ims_init limit : ims_ok limit [] (pworld0 limit).
Proof. split; [reflexivity|split; [cbn; lia|split]]; intros; contradiction. Qed.

Theorem C27_store_bounded : forall E limit ops,
  0 < limit -> length (pb_store (pw_pub (prun E (pworld0 limit) ops))) <= limit.
Proof.
  intros E limit ops Hl. pose proof (ims_run E limit ops [] _ Hl (ims_init limit)) as H.
  apply H.
Qed.
Print Assumptions C27_store_bounded.

Theorem C27_store_cleans_itself : forall E limit ops,
  0 < limit ->
  let w := prun E (pworld0 limit) ops in
  scheduler_ran w ->
  (forall t f, In (t, f) (publications 0 ops) -> (t + f <= pw_now w)%N) ->
  pb_store (pw_pub w) = [] /\ forall i, reply_from_store i (pw_pub w) = None.
Proof.
  intros E limit ops Hl w Hs Hp.
  pose proof (ims_run E limit ops [] _ Hl (ims_init limit)) as (_ & _ & H3 & H4).
  fold w in H3, H4. cbn [app pworld0 pw_now] in H4.
  assert (pb_store (pw_pub w) = []) as He.
  { destruct (pb_store (pw_pub w)) as [|d s] eqn:Ed; auto. exfalso.
    destruct (H3 d (or_introl eq_refl)) as (dl & Hd).
    destruct (H4 _ _ Hd) as (t & f & Ht & ->). specialize (Hs _ _ Hd). specialize (Hp _ _ Ht). lia. }
  split; auto. intros i. unfold reply_from_store. rewrite He. reflexivity.
Qed.
Print Assumptions C27_store_cleans_itself.

(** running the due events always reaches such a state *)
Theorem C27_scheduler_can_run : forall E w, exists fires,
  Forall (fun o => exists i, o = PFire i) fires /\
  scheduler_ran (prun E w fires) /\ pw_now (prun E w fires) = pw_now w.
Proof.
  intros E w. remember (length (pb_timers (pw_pub w))) as k eqn:Hk.
  revert w Hk. induction k as [k IH] using lt_wf_ind. intros w Hk.
  destruct (existsb (fun x => N.leb (fst x) (pw_now w)) (pb_timers (pw_pub w))) eqn:Ex.
  - apply existsb_exists in Ex as ([dl n] & Hin & Hle). cbn in Hle.
    apply In_nth_error in Hin as (i & Hi).
    destruct (IH (length (pb_timers (pub_fire (pw_now w) i (pw_pub w)))))
      with (w := fst (pstep E w (PFire i))) as (fires & F1 & F2 & F3).
    + unfold pub_fire. rewrite Hi, Hle. cbn [pb_timers].
      assert (i < length (pb_timers (pw_pub w))) by (apply nth_error_Some; congruence).
      rewrite app_length, firstn_length, skipn_length. lia.
    + reflexivity.
    + exists (PFire i :: fires). split; [constructor; eauto|]. split; [exact F2|].
      cbn [pstep fst pw_now] in F3. exact F3.
  - exists []. split; [constructor|split; [|reflexivity]]. intros dl n Hin. cbn [prun fold_left].
    destruct (N.leb_spec dl (pw_now w)) as [Hle|]; auto.
    exfalso. rewrite <- not_true_iff_false in Ex. apply Ex. apply existsb_exists.
    exists (dl, n). split; auto. cbn. apply N.leb_le. exact Hle.
Qed.
Print Assumptions C27_scheduler_can_run.

Example C27_example :
  let ops := [PPublish [gen x61] [gen x61] [x01] 1000; PLookup [gen x61]; PAdvance 400;
              PPublish [gen x62] [gen x62] [x02] 1000; PAdvance 700; PFire 0; PAdvance 300; PFire 0] in
  let w := prun env_example (pworld0 100) ops in
  scheduler_ran w /\ publications 0 ops = [(0, 1000); (400, 1000)]%N /\ pw_now w = 1400%N /\
  length (pb_store (pw_pub (prun env_example (pworld0 100) (firstn 6 ops)))) = 1.
Proof. split; [intros dl n H; vm_compute in H; contradiction|vm_compute; auto]. Qed.
