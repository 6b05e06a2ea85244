(** Published segments stay in memory. *)
From Coq Require Import List NArith ZArith Bool Arith Lia.
From Verif Require Import Base BaseFacts Mon MonFacts Iblt Tlv TlvFacts State NMap NMapFacts Codec CodecFacts Bloom Store StoreFacts
  Producer SpecProducer Partial SpecPartial PartialFacts PartialSteps Full FullTrace SpecFull FullFacts FullSteps SpecDeliver PairProducer.
Import ListNotations.
Local Open Scope nat_scope.

(** a publication: when, which one, the packets signed before, data name, content, freshness *)
Record issue := mkIssue { is_at : N; is_no : nat; is_sg : nat; is_base : name; is_buf : bytes; is_fresh : N }.
Section Avail.
Variable E : env.
(** data names used *)
Variable fam : name -> Prop.
Hypothesis fam_apart : forall a b, fam a -> fam b -> length a = length b \/ forall x y, is_prefix (a ++ x) (b ++ y) = false.
Variable limit : nat.
Definition leaf (x : issue) (i : nat) : data :=
  seg_data E (is_sg x) (append_version (is_base x) (en_version E (is_no x))) (is_buf x) (is_fresh x) i.
Definition leaves (x : issue) : list data :=
  segment E (is_sg x) (append_version (is_base x) (en_version E (is_no x))) (is_buf x) (is_fresh x).
Definition leaf_of (L : list issue) (d : data) : Prop :=
  exists x i, In x L /\ i < nseg (is_buf x) /\ d = leaf x i.

Inductive moves : list issue -> N -> pub -> Prop :=
| mv_new now : moves [] now (mkPub [] limit [] 0 0)
| mv_publish L now p i dn buf f : moves L now p -> fam dn ->
    moves (L ++ [mkIssue now (pb_published p) (pb_signed p) dn buf f]) now (fst (publish E now i dn buf f p))
| mv_signed L now p : moves L now p -> moves L now (count_signed p)
| mv_fire L now p i : moves L now p -> moves L now (pub_fire now i p)
| mv_time L now p dt : moves L now p -> moves L (now + dt)%N p.

(** the packet number [num] is in memory, and behind it only packets signed later *)
Definition queued (d : data) (num : nat) (s : list data) (sgn : nat) : Prop :=
  exists pre post, s = pre ++ d :: post /\ length post + num + 1 <= sgn.
Lemma queued_insert d num s sgn e : queued d num s sgn -> S sgn <= num + limit ->
  queued d num (store_insert limit e s) (S sgn).
Proof.
  intros (pre & post & -> & H) B. unfold store_insert. destruct (existsb _ _); [exists pre, post; split; [reflexivity|lia]|].
  destruct (Nat.leb_spec limit (length (pre ++ d :: post))) as [Hl|Hl].
  - destruct pre as [|a pre]; [cbn [app length] in Hl; lia|]. exists pre, (post ++ [e]). cbn [app skipn].
    rewrite <- app_assoc. split; [reflexivity|]. rewrite app_length. cbn [length]. lia.
  - exists pre, (post ++ [e]). rewrite <- app_assoc. split; [reflexivity|]. rewrite app_length. cbn [length]. lia.
Qed.
Lemma queued_inserts d num ds : forall s sgn, queued d num s sgn -> sgn + length ds <= num + limit ->
  queued d num (fold_left (fun s d => store_insert limit d s) ds s) (sgn + length ds).
Proof.
  induction ds as [|e ds IH]; intros s sgn H B; cbn [fold_left length] in *; [rewrite Nat.add_0_r; exact H|].
  replace (sgn + S (length ds)) with (S sgn + length ds) by lia. apply IH; [|lia]. apply queued_insert; [exact H|lia].
Qed.
Lemma queued_new ds1 d ds2 s sgn : (forall e, In e s \/ In e ds1 -> full_name e <> full_name d) ->
  length ds2 < limit ->
  queued d (sgn + length ds1) (fold_left (fun s d => store_insert limit d s) (ds1 ++ d :: ds2) s)
    (sgn + length (ds1 ++ d :: ds2)).
Proof.
  intros U B. rewrite fold_left_app, app_length. cbn [fold_left length].
  replace (sgn + (length ds1 + S (length ds2))) with (S (sgn + length ds1) + length ds2) by lia.
  apply queued_inserts; [|lia]. set (s1 := fold_left _ ds1 s).
  assert (existsb (fun e => name_eqb (full_name e) (full_name d)) s1 = false) as X.
  { destruct (existsb _ s1) eqn:X; [|reflexivity]. apply existsb_exists in X as (e & He & X). apply name_eqb_eq in X.
    destruct (U e); [|exact X]. apply fold_insert_In in He. tauto. }
  unfold store_insert. rewrite X. destruct (limit <=? _); eexists _, []; (split; [reflexivity|cbn [length]; lia]).
Qed.
Lemma queued_erase d num s sgn n : queued d num s sgn -> is_prefix n (d_name d) = false -> queued d num (store_erase n s) sgn.
Proof.
  intros (pre & post & -> & H) P. unfold store_erase. rewrite filter_app. cbn [filter]. rewrite P. cbn [negb].
  eexists _, _. split; [reflexivity|]. set (q := fun d0 => negb (is_prefix n (d_name d0))).
  assert (length (filter q post) <= length post); [|lia].
  clear. induction post as [|a l IH]; cbn [filter length]; [lia|]. destruct (q a); cbn [length]; lia.
Qed.

Record rolls (L : list issue) (m sgn : nat) : Prop := mkRolls {
  ro_len : length L = m;
  ro_no : forall k x, nth_error L k = Some x -> is_no x = k;
  ro_fam : forall x, In x L -> fam (is_base x);
  ro_sg : forall x, In x L -> is_sg x + nseg (is_buf x) <= sgn }.
Record avail (L : list issue) (now : N) (p : pub) : Prop := mkAvail {
  av_limit : pb_limit p = limit;
  av_rolls : rolls L (pb_published p) (pb_signed p);
  av_timers : forall dl n, In (dl, n) (pb_timers p) -> exists x i, In x L /\ i < nseg (is_buf x) /\
    n = d_name (leaf x i) /\ dl = (is_at x + is_fresh x)%N;
  av_store : forall e, In e (pb_store p) -> leaf_of L e;
  av_queued : versions_differ E (pb_published p) -> (N.of_nat (pb_signed p) <= two64)%N ->
    forall x i, In x L -> i < nseg (is_buf x) -> (now < is_at x + is_fresh x)%N -> pb_signed p <= is_sg x + i + limit ->
    queued (leaf x i) (is_sg x + i) (pb_store p) (pb_signed p) }.

Lemma leaf_unique L m sgn x i y j r : rolls L m sgn -> versions_differ E m -> (N.of_nat sgn <= two64)%N ->
  In x L -> i < nseg (is_buf x) -> In y L -> j < nseg (is_buf y) ->
  is_prefix (d_name (leaf x i)) (d_name (leaf y j) ++ r) = true -> x = y /\ i = j.
Proof.
  intros A V B Hx Hi Hy Hj P. unfold leaf in P. cbn [d_name seg_data] in P.
  unfold append_segment, append_version in P. rewrite <- !app_assoc in P.
  destruct (fam_apart _ _ (ro_fam _ _ _ A x Hx) (ro_fam _ _ _ A y Hy)) as [Hl|Hl].
  2:{ rewrite Hl in P. discriminate. }
  apply is_prefix_iff in P as (r' & P). rewrite <- !app_assoc in P.
  assert (is_base x = is_base y) as Hb.
  { apply (f_equal (firstn (length (is_base x)))) in P. rewrite !firstn_app, <- Hl, Nat.sub_diag in P.
    cbn [firstn] in P. rewrite !app_nil_r in P. rewrite firstn_all in P. rewrite Hl, firstn_all in P. auto. }
  rewrite Hb in P. apply app_inv_head in P. cbn [app] in P.
  assert (forall (a b c d : comp) (u v : name), a :: b :: u = c :: d :: v -> a = c /\ b = d) as Inj by (intros * X; injection X; auto).
  apply Inj in P as [Pv Ps].
  apply In_nth_error in Hx as [k Hx], Hy as [k' Hy].
  pose proof (ro_no _ _ _ A _ _ Hx) as Nx. pose proof (ro_no _ _ _ A _ _ Hy) as Ny.
  assert (k < m) by (rewrite <- (ro_len _ _ _ A); apply nth_error_Some; congruence).
  assert (k' < m) by (rewrite <- (ro_len _ _ _ A); apply nth_error_Some; congruence).
  rewrite Nx, Ny in Pv. apply number_comp_inj in Pv as [_ Pv]; [|apply (V k' k'); auto|apply (V k k); auto].
  apply (V k' k) in Pv; auto. subst k'. assert (y = x) as -> by congruence. split; auto.
  pose proof (ro_sg _ _ _ A x (nth_error_In _ _ Hx)) as Sg.
  apply number_comp_inj in Ps as [_ Ps]; lia.
Qed.

Lemma versions_less m m' : m' <= m -> versions_differ E m -> versions_differ E m'.
Proof. intros H V a b Ha Hb. apply V; lia. Qed.
Lemma nth_split_at {A} j : forall (l : list A) d, nth_error l j = Some d -> skipn j l = d :: skipn (S j) l.
Proof.
  induction j as [|j IH]; intros [|a l] d Hn; cbn [nth_error skipn] in *; try discriminate.
  - injection Hn as ->. reflexivity.
  - apply IH, Hn.
Qed.
Lemma avail_publish L now p i dn buf f : avail L now p -> fam dn ->
  avail (L ++ [mkIssue now (pb_published p) (pb_signed p) dn buf f]) now (fst (publish E now i dn buf f p)).
Proof.
  intros A F. set (x0 := mkIssue now (pb_published p) (pb_signed p) dn buf f).
  assert (fst (publish E now i dn buf f p) = mkPub (fold_left (fun s d => store_insert limit d s) (leaves x0) (pb_store p)) limit
    (pb_timers p ++ map (fun d => ((now + f)%N, d_name d)) (leaves x0)) (S (pb_published p)) (pb_signed p + length (leaves x0))) as ->.
  { unfold publish. cbn [fst]. rewrite insert_segments_eq. cbn [pb_store pb_limit pb_timers pb_published pb_signed].
    rewrite (av_limit _ _ _ A). reflexivity. }
  assert (length (leaves x0) = nseg buf) as Ln by apply segment_length.
  assert (forall e, In e (leaves x0) <-> exists j, j < nseg buf /\ e = leaf x0 j) as Lv by (intros e; apply segment_In).
  assert (forall x, In x (L ++ [x0]) -> In x L \/ x = x0) as Spl.
  { intros x H. apply in_app_or in H as [H|[H|[]]]; auto. }
  pose proof (av_rolls _ _ _ A) as R.
  assert (rolls (L ++ [x0]) (S (pb_published p)) (pb_signed p + nseg buf)) as R'.
  { constructor.
    - rewrite app_length, (ro_len _ _ _ R). cbn [length]. lia.
    - intros k x Hx. destruct (Nat.lt_ge_cases k (length L)) as [Hk|Hk].
      + rewrite nth_error_app1 in Hx by auto. apply (ro_no _ _ _ R _ _ Hx).
      + rewrite nth_error_app2 in Hx by auto. destruct (k - length L) as [|m] eqn:Ek; [|destruct m; discriminate].
        injection Hx as <-. cbn [is_no x0]. rewrite <- (ro_len _ _ _ R). lia.
    - intros x Hx. apply Spl in Hx as [Hx| ->]; [apply (ro_fam _ _ _ R), Hx|exact F].
    - intros x Hx. apply Spl in Hx as [Hx| ->]; [|cbn [is_sg is_buf x0]; lia]. apply (ro_sg _ _ _ R) in Hx. lia. }
  constructor; cbn [pb_limit pb_published pb_signed pb_timers pb_store]; rewrite ?Ln; auto.
  - intros dl n Hn. apply in_app_or in Hn as [Hn|Hn].
    + apply (av_timers _ _ _ A) in Hn as (x & j & Hx & Hj & Hn). exists x, j. split; [apply in_or_app; auto|auto].
    + apply in_map_iff in Hn as (d & Hn & Hd). injection Hn as <- <-. apply Lv in Hd as (j & Hj & ->).
      exists x0, j. split; [apply in_or_app; right; left; reflexivity|auto].
  - intros e He. apply fold_insert_In in He as [He|He].
    + apply (av_store _ _ _ A) in He as (x & j & Hx & Hj). exists x, j. split; [apply in_or_app; auto|auto].
    + apply Lv in He as (j & Hj & ->). exists x0, j. split; [apply in_or_app; right; left; reflexivity|auto].
  - intros V B x j Hx Hj Hf Hs. destruct (Spl x Hx) as [Hx'| ->].
    + rewrite <- Ln. apply queued_inserts; [|lia].
      apply (av_queued _ _ _ A); auto; [|lia|lia]. eapply versions_less; [|exact V]. lia.
    + cbn [is_sg is_buf is_at is_fresh x0] in *.
      assert (leaves x0 = firstn j (leaves x0) ++ leaf x0 j :: skipn (S j) (leaves x0)) as Sp.
      { rewrite <- (firstn_skipn j (leaves x0)) at 1. f_equal. apply nth_split_at, segment_nth, Hj. }
      assert (length (firstn j (leaves x0)) = j) as Lf by (rewrite firstn_length; lia).
      pose proof (queued_new (firstn j (leaves x0)) (leaf x0 j) (skipn (S j) (leaves x0)) (pb_store p) (pb_signed p)) as Q.
      rewrite <- Sp, Lf in Q. rewrite <- Ln. apply Q; [|rewrite skipn_length; lia].
      intros e He Hq. unfold full_name in Hq. apply app_inj_tail in Hq as [Hq _].
      assert (forall y m, In y (L ++ [x0]) -> m < nseg (is_buf y) -> e = leaf y m -> y = x0 /\ m = j) as U.
      { intros y m Hy Hm ->. eapply (leaf_unique _ _ _ y m x0 j []); eauto. rewrite app_nil_r, Hq. apply is_prefix_refl. }
      destruct He as [He|He].
      * apply (av_store _ _ _ A) in He as (y & m & Hy & Hm & He).
        destruct (U y m) as [-> _]; auto; [apply in_or_app; auto|].
        apply (ro_sg _ _ _ R) in Hy. cbn [is_sg is_buf x0] in Hy. cbn [is_buf x0] in Hm. lia.
      * apply In_nth_error in He as [m He].
        assert (m < j) by (rewrite <- Lf; apply nth_error_Some; congruence).
        assert (nth_error (leaves x0) m = Some e) as He'.
        { rewrite Sp, nth_error_app1; [exact He|lia]. }
        unfold leaves in He'. rewrite segment_nth in He' by (cbn [is_buf x0]; lia). injection He' as <-.
        destruct (U x0 m) as [_ X]; auto; cbn [is_buf x0]; lia.
Qed.
Lemma avail_fire L now p i : avail L now p -> avail L now (pub_fire now i p).
Proof.
  intros A. unfold pub_fire. destruct (nth_error (pb_timers p) i) as [[dl n]|] eqn:En; [|exact A].
  destruct (N.leb_spec dl now) as [Hd|]; [|exact A].
  pose proof (av_timers _ _ _ A _ _ (nth_error_In _ _ En)) as (y & k & Hy & Hk & Hn & Hdl).
  constructor; cbn [pb_limit pb_published pb_signed pb_timers pb_store]; try apply A.
  - intros dl' n' Hin. apply (av_timers _ _ _ A). apply in_app_or in Hin as [Hin|Hin].
    + rewrite <- (firstn_skipn i). apply in_or_app. auto.
    + rewrite <- (firstn_skipn (S i)). apply in_or_app. auto.
  - intros e He. apply (av_store _ _ _ A). apply filter_In in He. apply He.
  - intros V B x j Hx Hj Hf Hs. apply queued_erase; [apply (av_queued _ _ _ A); auto|].
    destruct (is_prefix n (d_name (leaf x j))) eqn:P; [|reflexivity]. subst n.
    destruct (leaf_unique L _ _ y k x j [] (av_rolls _ _ _ A)) as [<- <-]; auto; [rewrite app_nil_r; exact P|lia].
Qed.
Lemma moves_avail L now p : moves L now p -> avail L now p.
Proof.
  induction 1 as [now|L now p i dn buf f _ IH F|L now p _ IH|L now p i _ IH|L now p dt _ IH].
  - constructor; cbn; auto; try (intros ? ? []); try (intros ? []).
    constructor; [reflexivity| |intros ? []..]. intros k x X. destruct k; discriminate X.
  - apply avail_publish; auto.
  - destruct IH as [A B C D Q]. constructor; auto.
    + destruct B as [B1 B2 B3 B4]. constructor; auto. intros x Hx. cbn. apply B4 in Hx. lia.
    + cbn. intros V Sg x i Hx Hi Hf Hs. destruct (Q V) with (x := x) (i := i) as (pre & post & U & W); auto; try lia.
      exists pre, post. split; [exact U|lia].
  - apply avail_fire, IH.
  - destruct IH as [A B C D Q]. constructor; auto. intros V Sg x i Hx Hi Hf Hs. apply Q; auto. lia.
Qed.
(** a packet of a publication is found as long as it is fresh and not too many were signed since *)
Lemma moves_found L now p x i : moves L now p -> versions_differ E (pb_published p) -> (N.of_nat (pb_signed p) <= two64)%N ->
  In x L -> i < nseg (is_buf x) -> (now < is_at x + is_fresh x)%N -> pb_signed p <= is_sg x + i + limit ->
  reply_from_store (d_name (leaf x i)) p = Some (leaf x i).
Proof.
  intros M V B Hx Hi Hf Hs. pose proof (moves_avail _ _ _ M) as A.
  destruct (av_queued _ _ _ A V B x i Hx Hi Hf Hs) as (pre & post & Es & _).
  apply store_find_only; [rewrite Es; apply in_elt|apply full_name_prefix|].
  intros e He P. destruct (av_store _ _ _ A e He) as (y & j & Hy & Hj & ->). unfold full_name in P.
  destruct (leaf_unique L _ _ x i y j _ (av_rolls _ _ _ A) V B Hx Hi Hy Hj P) as [<- <-]. reflexivity.
Qed.
(** what a handler running at time [now], whose publications are [good], does to the publisher *)
Section Works.
Variable good : issue -> Prop.
Definition works (now : N) (p : pub) (o : list data) (p' : pub) : Prop := forall L, moves L now p -> exists L',
  moves (L ++ L') now p' /\ (forall x, In x L' -> is_at x = now /\ pb_signed p <= is_sg x /\ good x) /\ pb_signed p <= pb_signed p' /\
  (forall d, In d (pb_store p') -> In d (pb_store p) \/ leaf_of L' d) /\
  (forall d, In d o -> d_type d = AppNack \/ In d (pb_store p) \/ leaf_of L' d).
Lemma leaf_of_app L L' d : leaf_of L d \/ leaf_of L' d -> leaf_of (L ++ L') d.
Proof. intros [(x & i & H & X)|(x & i & H & X)]; exists x, i; (split; [apply in_or_app; auto|exact X]). Qed.
Lemma works_same now p o : (forall d, In d o -> d_type d = AppNack \/ In d (pb_store p)) -> works now p o p.
Proof.
  clear fam_apart. intros H L M. exists []. rewrite app_nil_r. split; [exact M|]. split; [intros x []|]. split; [lia|]. split; [auto|].
  intros d Hd. destruct (H d Hd); auto.
Qed.
Lemma works_reply now p n d : reply_from_store n p = Some d -> works now p [d] p.
Proof. clear fam_apart. intros H. apply works_same. intros x [<-|[]]. right. apply store_find_Some in H. apply H. Qed.
Lemma works_nack now p dn f : works now p [nack_data E (pb_signed p) f dn] (count_signed p).
Proof.
  clear fam_apart. intros L M. exists []. rewrite app_nil_r. split; [apply mv_signed, M|]. split; [intros x []|]. split; [cbn; lia|].
  split; [auto|]. intros d [<-|[]]. auto.
Qed.
Lemma works_fire now p i : works now p [] (pub_fire now i p).
Proof.
  clear fam_apart. intros L M. exists []. rewrite app_nil_r. split; [apply mv_fire, M|]. split; [intros x []|].
  split; [|split; [|intros d []]]; unfold pub_fire; destruct (nth_error _ _) as [[dl n]|]; auto; destruct (dl <=? now)%N; auto.
  intros d Hd. left. apply filter_In in Hd. apply Hd.
Qed.
Lemma works_publish now p i dn buf f : fam dn -> good (mkIssue now (pb_published p) (pb_signed p) dn buf f) ->
  works now p match snd (publish E now i dn buf f p) with Ok l => l | _ => [] end (fst (publish E now i dn buf f p)).
Proof.
  clear fam_apart. intros F G L M. pose proof (mv_publish L now p i dn buf f M F) as M'.
  set (x0 := mkIssue now (pb_published p) (pb_signed p) dn buf f) in *. exists [x0]. split; [exact M'|].
  assert (forall d, In d (leaves x0) -> leaf_of [x0] d) as Lv.
  { intros d Hd. apply segment_In in Hd as (j & Hj & ->). exists x0, j. split; [left; reflexivity|auto]. }
  split; [intros x [<-|[]]; cbn; auto|].
  unfold publish in *. cbn [fst snd] in *. rewrite insert_segments_eq in *. cbn [pb_store pb_signed pb_limit] in *.
  split; [lia|]. split.
  - intros d Hd. apply fold_insert_In in Hd as [Hd|Hd]; auto.
  - intros d Hd. destruct (put_segment i _) as [l| | |] eqn:P; try contradiction. right. right. apply Lv.
    exact (put_segment_In _ _ _ P d Hd).
Qed.
Lemma works_trans now p o p1 o1 p2 : works now p o p1 -> works now p1 o1 p2 -> works now p (o ++ o1) p2.
Proof.
  clear fam_apart. intros A B L M. destruct (A L M) as (L1 & A1 & A2 & A3 & A4 & A5). destruct (B _ A1) as (L2 & B1 & B2 & B3 & B4 & B5).
  exists (L1 ++ L2). rewrite app_assoc. split; [exact B1|]. split.
  { intros x Hx. apply in_app_or in Hx as [Hx|Hx]; [auto|]. destruct (B2 x Hx) as (C1 & C2 & C3). split; [auto|]. split; [lia|exact C3]. }
  split; [lia|]. split.
  - intros d Hd. destruct (B4 d Hd) as [X|X]; [|right; apply leaf_of_app; auto].
    destruct (A4 d X) as [Y|Y]; auto. right. apply leaf_of_app; auto.
  - intros d Hd. apply in_app_or in Hd as [Hd|Hd].
    + destruct (A5 d Hd) as [X|[X|X]]; auto. right. right. apply leaf_of_app; auto.
    + destruct (B5 d Hd) as [X|[X|X]]; auto; [|right; right; apply leaf_of_app; auto].
      destruct (A4 d X) as [Y|Y]; auto. right. right. apply leaf_of_app; auto.
Qed.
End Works.
End Avail.

(** ** Partial producers *)
Section Partial.
Variable K : pcfg.
Notation E := (pc_env K).
Definition pfam (n : name) : Prop := exists r,
  n = pc_sync K ++ HELLO :: r /\ length r = 1 \/ n = pc_sync K ++ SYNC :: r /\ length r = 5.
Lemma pfam_apart a b : pfam a -> pfam b -> length a = length b \/ forall x y, is_prefix (a ++ x) (b ++ y) = false.
Proof.
  assert (forall c c' r r' x y, c <> c' -> is_prefix ((pc_sync K ++ c :: r) ++ x) ((pc_sync K ++ c' :: r') ++ y) = false) as D.
  { intros c c' r r' x y Hc. destruct (is_prefix _ _) eqn:P; [|reflexivity]. apply is_prefix_iff in P as (z & P).
    rewrite <- !app_assoc in P. apply app_inv_head in P. cbn [app] in P. injection P as P _. congruence. }
  assert (HELLO <> SYNC) as Hc by discriminate.
  intros (r & [[-> H]|[-> H]]) (r' & [[-> H']|[-> H']]); [left|right|right|left].
  - rewrite !app_length. cbn [length]. lia.
  - intros. apply D, Hc.
  - intros. apply D. congruence.
  - rewrite !app_length. cbn [length]. lia.
Qed.
Definition sync_key (key : name) : Prop := exists r, key = pc_sync K ++ SYNC :: r /\ length r = 4.
Definition waiting_keys (s : pp) : Prop := Forall sync_key (map fst (pp_pending s)).
(** a reply made from the data [k] *)
Definition reply_from (k : core) (x : issue) : Prop := exists rn c names,
  carries_ibf (pc_codec K) (pc_scheme K) c (k_iblt k) /\ is_base x = rn ++ [c] /\ is_buf x = encode_names names /\
  (rn = pc_sync K ++ [HELLO] /\ is_fresh x = pc_hello_fresh K /\ names = hello_content k \/
   sync_key rn /\ is_fresh x = pc_sync_fresh K /\ forall nm, In nm names ->
     (exists h, bm_left h (k_bimap k) = Some nm) \/ exists p v, nm = append_number p v /\ get_seq p k = Some v).
Definition acting_on (good : issue -> Prop) (s : pp) (o : list data) (s' : pp) : Prop :=
  waiting_keys s' /\ pp_now s' = pp_now s /\ works E pfam IMS_LIMIT good (pp_now s) (pp_pub s) o (pp_pub s').
Section Acts.
Variable k : core.
Definition acts {A} (m : PM A) : Prop := forall s, waiting_keys s -> pp_core s = k ->
  acting_on (reply_from k) s (outs (m s)) (st (m s)) /\ pp_core (st (m s)) = k.
Lemma acts_ret {A} (a : A) : acts (mret a).
Proof. intros s H C. split; [|exact C]. split; [exact H|]. split; [reflexivity|]. apply works_same. intros d []. Qed.
Lemma acts_lift {A} (r : outcome A) : acts (mlift r).
Proof. intros s H C. split; [|exact C]. split; [exact H|]. split; [reflexivity|]. apply works_same. intros d []. Qed.
Lemma acts_mod f : (forall s, pp_core (f s) = pp_core s /\ pp_pub (f s) = pp_pub s /\ pp_now (f s) = pp_now s /\ (waiting_keys s -> waiting_keys (f s))) -> acts (mmod f).
Proof.
  intros F s H C. unfold acting_on. cbn [mmod st outs fst snd]. destruct (F s) as (X & A & B & D). rewrite A, B, X. split; [|exact C]. split; [auto|]. split; [auto|].
  apply works_same. intros d [].
Qed.
Lemma acts_bind {A B} (m : PM A) (f : A -> PM B) : acts m -> (forall a, acts (f a)) -> acts (mbind m f).
Proof.
  intros Hm Hf s H C. destruct (Hm s H C) as ((A1 & A2 & A3) & A4). unfold mbind, st, outs in *.
  destruct (m s) as [[s1 o1] [a|e|u|]]; cbn [fst snd] in *; try (split; [split|]; auto; fail).
  destruct (Hf a s1 A1 A4) as ((B1 & B2 & B3) & B4). unfold st, outs in *. destruct (f a s1) as [[s2 o2] r2]. cbn [fst snd] in *.
  split; [|exact B4]. split; [exact B1|]. split; [congruence|]. eapply works_trans; [exact A3|]. rewrite <- A2. exact B3.
Qed.
Lemma acts_get {B} (f : pp -> PM B) : (forall s, waiting_keys s -> pp_core s = k -> acts (f s)) -> acts (mbind mget f).
Proof. intros H s Hs C. rewrite mbind_get. apply H; auto. Qed.
Lemma acts_publish i dn buf f : pfam dn -> (forall at_ no sg, reply_from k (mkIssue at_ no sg dn buf f)) -> acts (pp_publish K i dn buf f).
Proof.
  intros F G s H C. rewrite pp_publish_eq. unfold acting_on, st, outs. cbn [fst snd pp_pub pp_now pp_core set_pub]. split; [|exact C].
  split; [exact H|]. split; [reflexivity|]. apply (works_publish E pfam IMS_LIMIT); auto.
Qed.
Lemma acts_nack n : acts (pp_send_nack K n).
Proof.
  intros s H C. unfold pp_send_nack. rewrite mbind_get, mbind_lift.
  destruct (append_ibf _ _ _ _) as [dn|e|u|]; try (split; [|exact C]; split; [exact H|]; split; [reflexivity|]; apply works_same; intros d []).
  rewrite mbind_mod. split; [|exact C]. split; [exact H|]. split; [reflexivity|]. apply works_nack.
Qed.
Lemma acts_reply n (m : pp -> PM unit) : (forall s, pp_core s = k -> acts (m s)) -> acts (mbind mget (fun s =>
  match reply_from_store n (pp_pub s) with Some d => memit [d] | None => m s end)).
Proof.
  intros Hm s H C. rewrite mbind_get. destruct (reply_from_store n (pp_pub s)) as [d|] eqn:R; [|apply Hm; auto].
  split; [|exact C]. split; [exact H|]. split; [reflexivity|]. eapply works_reply, R.
Qed.
Lemma hello_fam c : pfam ((pc_sync K ++ [HELLO]) ++ [c]).
Proof. exists [c]. left. rewrite <- app_assoc. auto. Qed.
Lemma sync_fam rn c : sync_key rn -> pfam (rn ++ [c]).
Proof.
  intros (r & -> & Hl). exists (r ++ [c]). right. rewrite <- app_assoc. split; [reflexivity|]. rewrite app_length. cbn [length]. lia.
Qed.
Lemma acts_hello i : acts (mbind (mlift (append_ibf (pc_codec K) (pc_scheme K) (pc_sync K ++ [HELLO]) (k_iblt k)))
  (fun dn => pp_publish K i dn (encode_names (hello_content k)) (pc_hello_fresh K))).
Proof.
  intros s H C. rewrite mbind_lift. destruct (append_ibf _ _ _ _) as [dn|e|u|] eqn:Ea;
    [|apply (acts_lift (Throw e)); auto|apply (acts_lift (UB u)); auto|apply (acts_lift Hang); auto].
  apply append_ibf_carries in Ea as (c & Hc & ->). apply acts_publish; auto; [apply hello_fam|].
  intros. exists (pc_sync K ++ [HELLO]), c, (hello_content k). cbn. auto 10.
Qed.
Lemma acts_sync i rn names : sync_key rn ->
  (forall nm, In nm names -> (exists h, bm_left h (k_bimap k) = Some nm) \/ exists p v, nm = append_number p v /\ get_seq p k = Some v) ->
  acts (mbind (mlift (append_ibf (pc_codec K) (pc_scheme K) rn (k_iblt k)))
    (fun dn => pp_publish K i dn (encode_names names) (pc_sync_fresh K))).
Proof.
  intros Hr Hn s H C. rewrite mbind_lift. destruct (append_ibf _ _ _ _) as [dn|e|u|] eqn:Ea;
    [|apply (acts_lift (Throw e)); auto|apply (acts_lift (UB u)); auto|apply (acts_lift Hang); auto].
  apply append_ibf_carries in Ea as (c & Hc & ->). apply acts_publish; auto; [apply sync_fam; auto|].
  intros. exists rn, c, names. cbn. auto 10.
Qed.
Lemma acts_erase key : acts (mmod (fun s => set_pending (nm_erase key (pp_pending s)) s)).
Proof. apply acts_mod. intros s. split; [reflexivity|]. split; [reflexivity|]. split; [reflexivity|]. apply nm_erase_Forall. Qed.
Lemma acts_satisfy p v keys : get_seq p k = Some v -> acts (satisfy K p keys).
Proof.
  intros Hv. induction keys as [|key keys IH]; cbn [satisfy]; [apply acts_ret|]. apply acts_bind; [|intros _; exact IH].
  unfold satisfy_one. apply acts_get. intros s Hs Hc. destruct (nm_find key (pp_pending s)) as [e|] eqn:Hk; [|apply acts_ret].
  assert (sync_key key) as Hr.
  { unfold waiting_keys in Hs. rewrite Forall_forall in Hs. apply Hs. apply nm_find_In in Hk. apply in_map_iff. exists (key, e). auto. }
  apply acts_bind; [apply acts_lift|]. intros d. cbv zeta. destruct (negb _); [apply acts_erase|].
  apply acts_bind; [apply acts_lift|]. intros x. destruct (x || _); [|apply acts_ret]. rewrite Hc, Hv.
  intros s0 H0 C0.
  assert (forall nm, In nm (if x then [append_number p v] else []) ->
    (exists h, bm_left h (k_bimap k) = Some nm) \/ exists p v, nm = append_number p v /\ get_seq p k = Some v) as Hn.
  { intros nm Hn. destruct x; [|destruct Hn]. destruct Hn as [<-|[]]. eauto. }
  pose proof (acts_bind _ _ (acts_sync key key _ Hr Hn) (fun _ => acts_erase key) s0 H0 C0) as X.
  rewrite mbind_assoc in X. exact X.
Qed.
End Acts.
Lemma sync_request_key n rn : is_prefix (pc_sync K ++ [SYNC]) n = true -> sync_request (pc_sync K ++ [SYNC]) n = Some rn -> sync_key rn.
Proof.
  intros P. apply is_prefix_iff in P as (r & ->). unfold sync_request. rewrite skipn_app, skipn_all, Nat.sub_diag. cbn [app skipn].
  destruct (Nat.eqb_spec (length r) 4) as [H|_].
  - intros [= <-]. exists r. rewrite <- app_assoc. auto.
  - destruct (Nat.eqb_spec (length r) 6) as [H|_]; [|discriminate]. intros [= <-]. unfold name_prefix_back.
    exists (firstn 4 r). rewrite <- app_assoc. rewrite firstn_app, !app_length, H. cbn [app length].
    rewrite firstn_length, H. split; [|reflexivity].
    rewrite firstn_all2 by lia. replace (_ - 2 - _) with 5 by lia. reflexivity.
Qed.
Lemma acting_same good s s' : waiting_keys s -> pp_pub s' = pp_pub s -> pp_now s' = pp_now s -> pp_pending s' = pp_pending s ->
  acting_on good s [] s'.
Proof.
  intros H A B C. split; [unfold waiting_keys; rewrite C; exact H|]. split; [exact B|]. rewrite A. apply works_same. intros d [].
Qed.
Lemma acts_step e s : (forall dt, e <> PTick dt) -> waiting_keys s ->
  acting_on (reply_from (pp_core (st (pp_step K e s)))) s (outs (pp_step K e s)) (st (pp_step K e s)).
Proof.
  intros Ht Hs.
  assert (forall m : PM unit, acts (pp_core s) m -> acting_on (reply_from (pp_core (st (m s)))) s (outs (m s)) (st (m s))) as One.
  { intros m Hm. destruct (Hm s Hs eq_refl) as [A ->]. exact A. }
  destruct e as [p|p|p q|n l|dt|key|i]; cbn [pp_step].
  - apply acting_same; auto.
  - rewrite mbind_get, mbind_lift. destruct (core_remove p (pp_core s)); apply acting_same; auto.
  - unfold pp_publish_name. rewrite mbind_get, mbind_lift.
    destruct (core_publish p q (pp_core s)) as [[k x]|e|u|] eqn:Pb; try (apply acting_same; auto; fail).
    rewrite mbind_mod. cbn [fst snd]. destruct x as [v|]; [|apply acting_same; auto].
    destruct (core_publish_some _ _ _ _ _ Pb) as (v' & Hv).
    destruct (acts_satisfy k p v' (nm_keys (pp_pending s)) Hv (set_core k s) Hs eq_refl) as [(A & B & C) D].
    rewrite D. split; [exact A|]. split; [exact B|exact C].
  - apply One. unfold dispatch. destruct (is_prefix _ n); [|destruct (is_prefix (pc_sync K ++ [SYNC]) n) eqn:P; [|apply acts_ret]].
    + apply acts_reply. intros s0 C0. apply acts_bind; [apply acts_lift|]. intros x. destruct x; [|apply acts_ret].
      rewrite C0. apply acts_hello.
    + apply acts_reply. intros s0 C0. destruct (sync_request _ n) as [r|] eqn:Sr; [|apply acts_ret].
      pose proof (sync_request_key n r P Sr) as Hk.
      apply acts_bind; [apply acts_lift|]. intros [[bf t]|]; [|apply acts_ret]. apply acts_bind; [apply acts_lift|]. intros d.
      destruct (negb _); [apply acts_nack|]. rewrite C0. intros s1 H1 C1. rewrite mbind_lift.
      destruct (matching _ _ _) as [c|e|u|] eqn:M;
        [|apply (acts_lift (pp_core s) (Throw e)); auto|apply (acts_lift (pp_core s) (UB u)); auto|apply (acts_lift (pp_core s) Hang); auto].
      revert s1 H1 C1. match goal with |- forall s1, waiting_keys s1 -> _ -> acting_on _ s1 (outs (?m s1)) _ /\ _ => change (acts (pp_core s) m) end.
      destruct (_ || _).
      * apply acts_sync; [exact Hk|]. intros nm Hn. apply (matching_In _ _ _ _ M) in Hn as (h & _ & Hn & _). eauto.
      * apply acts_mod. intros s1. split; [reflexivity|]. split; [reflexivity|]. split; [reflexivity|]. unfold waiting_keys. cbn [pp_pending set_pending].
        unfold add_pending. intros H. destruct (nm_find r _); apply nm_set_keys_Forall; auto.
  - destruct (Ht dt eq_refl).
  - apply One, acts_mod. intros s0. unfold expire. destruct (nm_find key (pp_pending s0)) as [e|] eqn:Hk; [|auto].
    destruct (pe_expiry e) as [[dl y]|]; [|auto]. destruct (dl <=? _)%N; [|auto].
    split; [reflexivity|]. split; [reflexivity|]. split; [reflexivity|]. unfold waiting_keys. cbn [pp_pending set_pending]. intros H.
    apply nm_erase_Forall, nm_set_keys_Forall; auto. rewrite Forall_forall in H. apply H. apply nm_find_In in Hk.
    apply in_map_iff. exists (key, e). auto.
  - split; [exact Hs|]. split; [reflexivity|]. apply works_fire.
Qed.
(** the further history of a state *)
Lemma pp_run_more evs : forall s L s' o, waiting_keys s -> moves E pfam IMS_LIMIT L (pp_now s) (pp_pub s) ->
  pp_run K s evs = Some (s', o) -> waiting_keys s' /\ (pp_now s <= pp_now s')%N /\ pb_signed (pp_pub s) <= pb_signed (pp_pub s') /\
  exists L', moves E pfam IMS_LIMIT (L ++ L') (pp_now s') (pp_pub s').
Proof.
  intros s L s' o A M R. revert s' o R. unfold pp_run. induction evs as [|e evs IH] using rev_ind; intros s' o R.
  - injection R as <- <-. split; [exact A|]. split; [lia|]. split; [lia|]. exists []. rewrite app_nil_r. exact M.
  - apply run_snoc in R as (s1 & o1 & o2 & R & <- & <- & -> & _). apply IH in R as (A1 & T1 & S1 & L1 & M1).
    destruct e as [p|p|p q|n l|dt|key|i];
      try (match goal with |- context [pp_step K ?ev] => destruct (acts_step ev s1 ltac:(discriminate) A1) as (B & Et & W) end;
           split; [exact B|]; destruct (W _ M1) as (L' & M' & _ & S2 & _); (split; [lia|]); (split; [lia|]); exists (L1 ++ L'); rewrite Et, app_assoc; exact M').
    split; [exact A1|]. cbn. split; [lia|]. split; [exact S1|]. exists L1. apply mv_time, M1.
Qed.
Lemma pp_run_moves evs s o : pp_run K (pp_new K) evs = Some (s, o) -> waiting_keys s /\
  exists L, moves E pfam IMS_LIMIT L (pp_now s) (pp_pub s).
Proof. intros R. destruct (pp_run_more evs (pp_new K) [] s o) as (A & _ & _ & B); auto; constructor. Qed.
Lemma moves_len fam limit L now p : moves E fam limit L now p ->
  (forall a b, fam a -> fam b -> length a = length b \/ forall x y, is_prefix (a ++ x) (b ++ y) = false) -> length L = pb_published p.
Proof. intros M Ap. apply (ro_len _ _ _ _ (av_rolls _ _ _ _ _ _ (moves_avail _ _ Ap _ _ _ _ M))). Qed.
(** the reply behind a packet that is not sent from memory, and how long its segments stay *)
Lemma producer_issue evs s1 o1 e s2 o2 d0 :
  pp_run K (pp_new K) evs = Some (s1, o1) -> pp_run K s1 [e] = Some (s2, o2) ->
  In d0 o2 -> d_type d0 = Blob -> ~ In d0 (pb_store (pp_pub s1)) ->
  exists x i0, i0 < nseg (is_buf x) /\ d0 = leaf E x i0 /\ reply_from (pp_core s2) x /\
    forall evs' s o, pp_run K s2 evs' = Some (s, o) ->
      versions_differ E (pb_published (pp_pub s)) -> (N.of_nat (pb_signed (pp_pub s)) <= two64)%N ->
      (pp_now s < pp_now s1 + is_fresh x)%N -> pb_signed (pp_pub s) <= pb_signed (pp_pub s1) + 100 ->
      forall i l, i < nseg (is_buf x) -> pp_step K (PInterest (d_name (leaf E x i)) l) s = (s, [leaf E x i], Ok tt).
Proof.
  intros R1 R2 Hd Hb Hnew.
  apply pp_run_moves in R1 as (A1 & L & M1).
  assert (forall dt, e <> PTick dt) as Ht.
  { intros dt ->. injection R2 as <- <-. destruct Hd. }
  destruct (acts_step e s1 Ht A1) as (A2 & Et & W). destruct (W L M1) as (L' & M2 & X1 & X2 & X3 & X4).
  assert (s2 = st (pp_step K e s1) /\ In d0 (outs (pp_step K e s1))) as [-> Hd'].
  { unfold pp_run in R2. cbn [run] in R2. unfold st, outs. destruct (pp_step K e s1) as [[a b] [u|x|u|]]; try discriminate;
      injection R2 as <- <-; rewrite app_nil_r in Hd; auto. }
  destruct (X4 d0 Hd') as [X|[X|X]]; [congruence|contradiction|]. destruct X as (x & i0 & Hx & Hi0 & Ed0).
  destruct (X1 x Hx) as (Ea & Es & Gx). exists x, i0. split; [exact Hi0|]. split; [exact Ed0|]. split; [exact Gx|].
  intros evs' s o R3 V B T Sg i l Hi. rewrite <- Et in M2.
  destruct (pp_run_more evs' _ _ s o A2 M2 R3) as (_ & _ & _ & L3 & M3).
  assert (reply_from_store (d_name (leaf E x i)) (pp_pub s) = Some (leaf E x i)) as Rp.
  { apply (moves_found _ _ pfam_apart _ _ _ _ x i M3); auto.
    - apply in_or_app. left. apply in_or_app. auto.
    - rewrite Ea. exact T.
    - unfold IMS_LIMIT. lia. }
  assert (pfam (is_base x)) as (r & Hr).
  { apply (ro_fam _ _ _ _ (av_rolls _ _ _ _ _ _ (moves_avail _ _ pfam_apart _ _ _ _ M3))).
    apply in_or_app. left. apply in_or_app. auto. }
  cbn [pp_step]. unfold dispatch.
  assert (exists z, d_name (leaf E x i) = is_base x ++ z) as (z & Ez).
  { unfold leaf. cbn [d_name seg_data]. unfold append_segment, append_version. rewrite <- app_assoc. eauto. }
  assert (is_prefix (pc_sync K ++ [HELLO]) (d_name (leaf E x i)) = true \/
    is_prefix (pc_sync K ++ [HELLO]) (d_name (leaf E x i)) = false /\
    is_prefix (pc_sync K ++ [SYNC]) (d_name (leaf E x i)) = true) as P.
  { rewrite Ez. destruct Hr as [[-> _]|[-> _]]; [left|right; split].
    - apply is_prefix_iff. exists (r ++ z). rewrite <- !app_assoc. reflexivity.
    - destruct (is_prefix _ _) eqn:P; [|reflexivity]. apply is_prefix_iff in P as (y & P). rewrite <- !app_assoc in P.
      apply app_inv_head in P. cbn [app] in P. injection P as P _. discriminate P.
    - apply is_prefix_iff. exists (r ++ z). rewrite <- !app_assoc. reflexivity. }
  destruct P as [->|[-> ->]]; [unfold on_hello_interest|unfold on_sync_interest]; rewrite mbind_get, Rp; reflexivity.
Qed.
End Partial.

(** ** Full-sync nodes *)
Section Full.
Variable K : fcfg.
Notation E := (fc_env K).
Definition ffam (n : name) : Prop := length n = length (fc_sync K) + 2.
Lemma ffam_apart a b : ffam a -> ffam b -> length a = length b \/ forall x y, is_prefix (a ++ x) (b ++ y) = false.
Proof. unfold ffam. intros -> ->. left. reflexivity. Qed.
Definition kept_keys (s : fp) : Prop := Forall ffam (map fst (f_pending s)).
Definition facts (s : fp) (o : list fout) (s' : fp) : Prop := kept_keys s ->
  kept_keys s' /\ f_now s' = f_now s /\ works E ffam IMS_LIMIT (fun _ => True) (f_now s) (f_pub s) (data_of o) (f_pub s').
Lemma facts_same s o s' : f_now s' = f_now s -> f_pub s' = f_pub s -> (kept_keys s -> kept_keys s') -> data_of o = [] -> facts s o s'.
Proof. intros A B C D H. rewrite A, B, D. split; [auto|]. split; [reflexivity|]. apply works_same. intros d []. Qed.
Lemma data_app a b : data_of (a ++ b) = data_of a ++ data_of b.
Proof. induction a as [|[]]; simpl; auto. rewrite IHa. reflexivity. Qed.
Lemma data_map l : data_of (map FoData l) = l.
Proof. induction l; simpl; auto. rewrite IHl. reflexivity. Qed.
Lemma facts_trans s o s1 o1 s2 : facts s o s1 -> facts s1 o1 s2 -> facts s (o ++ o1) s2.
Proof.
  intros A B H. destruct (A H) as (A1 & A2 & A3). destruct (B A1) as (B1 & B2 & B3).
  split; [exact B1|]. split; [congruence|]. rewrite data_app. eapply works_trans; [exact A3|]. rewrite <- A2. exact B3.
Qed.
Lemma facts_publish s n b f : ffam n -> facts s
    (map FoData match snd (publish E (f_now s) n n b f (f_pub s)) with Ok l => l | _ => [] end)
    (fset_pub (fst (publish E (f_now s) n n b f (f_pub s))) s).
Proof.
  intros F H. cbn [f_now f_pub fset_pub]. split; [exact H|]. split; [reflexivity|]. rewrite data_map.
  apply (works_publish E ffam IMS_LIMIT); auto.
Qed.
Lemma stopped_now s : f_now (stopped s) = f_now s /\ f_pub (stopped s) = f_pub s /\ f_pending (stopped s) = f_pending s.
Proof. unfold stopped. destruct (f_fetcher s); auto. Qed.
Lemma facts_send s : facts s (outs (send_sync_interest K s)) (st (send_sync_interest K s)).
Proof.
  rewrite send_eq. destruct (stopped_now s) as (A & B & C).
  assert (kept_keys s -> kept_keys (stopped s)) as D by (unfold kept_keys; rewrite C; auto).
  destruct (f_wait s); [apply facts_same; auto|].
  destruct (sync_name _ _) as [n|e|u|]; [|apply facts_same; auto..].
  destruct (_ && _); apply facts_same; cbn [st outs fst snd]; unfold sent; auto.
Qed.
Definition acting {A} (m : FM A) : Prop := forall s, facts s (outs (m s)) (st (m s)).
Lemma acting_ret {A} (a : A) : acting (mret a). Proof. intros s. apply facts_same; auto. Qed.
Lemma acting_lift {A} (r : outcome A) : acting (mlift r). Proof. intros s. apply facts_same; auto. Qed.
Lemma acting_bind {A B} (m : FM A) (f : A -> FM B) : acting m -> (forall a, acting (f a)) -> acting (mbind m f).
Proof.
  intros Hm Hf s. pose proof (Hm s) as H. unfold mbind, st, outs in *.
  destruct (m s) as [[s1 o1] [a|e|u|]]; cbn [fst snd] in *; auto. pose proof (Hf a s1) as H1. unfold st, outs in *.
  destruct (f a s1) as [[s2 o2] r2]. cbn [fst snd] in *. eapply facts_trans; eauto.
Qed.
Lemma acting_get {B} (f : fp -> FM B) : (forall x, acting (f x)) -> acting (mbind mget f).
Proof. intros H s. rewrite mbind_get. apply H. Qed.
Lemma acting_send_data n l f : ffam n -> acting (send_sync_data K n l f).
Proof.
  intros F. unfold send_sync_data. apply acting_get. intros x. cbv zeta.
  apply acting_bind; [|intros _; apply acting_bind; [apply acting_lift|intros b; apply acting_bind]].
  - destruct (_ && _); [|apply acting_ret]. unfold stop_fetcher. apply acting_bind; [intros s|intros _ s]; apply facts_same; cbn; auto.
    all: unfold kept_keys; cbn; destruct (f_fetcher s); auto.
  - intros s. rewrite fp_publish_eq. apply facts_publish, F.
  - intros _. destruct (name_eqb _ _); [intros s; apply facts_send|apply acting_ret].
Qed.
Lemma why_fam okop s n l f : kept_keys s -> data_why K okop s n l f -> ffam n.
Proof.
  assert (forall n t rc, names_ibf K n t rc -> ffam n) as N.
  { intros m t rc (H & _). rewrite skipn_length in H. unfold ffam. lia. }
  intros H W. destruct W as [s0 s o n t rc d l X _ _ _|s n t rc d X _ _|s n e d u X _ _]; eauto.
  unfold kept_keys in H. rewrite Forall_forall in H. apply H. apply nm_find_In in X. apply in_map_iff. exists (n, e). auto.
Qed.
Lemma facts_closed ok : closed K ok facts.
Proof.
  split; intros; try (apply facts_same; auto; fail); try apply facts_send.
  - eapply facts_trans; eauto.
  - intros X. split; [exact X|]. split; [reflexivity|]. eapply works_reply. eauto.
  - intros X. destruct H as (s0 & l & W & _ & Ep & _). apply facts_publish; [|exact X].
    eapply (why_fam ok s0); [|eauto]. unfold kept_keys in *. rewrite <- Ep. exact X.
  - intros X. split; [exact X|]. split; [reflexivity|]. apply works_nack.
  - intros X. apply acting_send_data; [|exact X]. eapply why_fam; eauto.
  - apply facts_same; auto. apply nm_erase_Forall.
  - apply facts_same; auto. intros X. unfold kept_keys. cbn [f_pending fset_pending]. unfold add_fpending.
    assert (ffam n) by (destruct H as (H & _); rewrite skipn_length in H; unfold ffam; lia).
    destruct (nm_find n _); apply nm_set_keys_Forall; auto.
  - apply start_closed; intros; try (apply facts_same; auto; fail). eapply facts_trans; eauto.
  - apply arm_closed; intros; try (apply facts_same; auto; fail). eapply facts_trans; eauto.
  - intros X. split; [exact X|]. split; [reflexivity|]. apply works_fire.
Qed.
Lemma facts_events : closed_events facts.
Proof. split; intros; apply facts_same; auto. Qed.
Lemma facts_step e s : (forall dt, e <> FeTick dt) -> facts s (outs (fp_step K e s)) (st (fp_step K e s)).
Proof.
  intros He.
  assert (Forall (fun _ : cop => True) (ev_ops e)) as Ho by (apply Forall_forall; auto).
  destruct e as [a|n l|i buf script|i face|i timeout|dt|t| | |key|i];
    try (apply (tr_step_but K (fun _ => True) facts (facts_closed _)); auto using facts_events; exact I).
  - destruct (He dt eq_refl).
  - apply facts_same; auto.
  - pose proof (facts_closed (fun _ => True)) as C.
    change (tr facts s (fp_step K FeDelay)). cbn [fp_step].
    apply (tr_get facts). destruct (f_delay s) as [dl|]; [|apply (tr_ret K _ facts C)].
    destruct (dl <=? _)%N; [|apply (tr_ret K _ facts C)].
    apply (tr_mod K _ facts C); [apply facts_same; auto|].
    apply (tr_seq K _ facts C); [apply (tr_process K _ facts C); auto|intros; apply (tr_schedule K _ facts C)].
Qed.
Lemma fp_run_more evs : forall s L s' o, kept_keys s -> moves E ffam IMS_LIMIT L (f_now s) (f_pub s) ->
  fp_run K s evs = Some (s', o) -> kept_keys s' /\ (f_now s <= f_now s')%N /\ pb_signed (f_pub s) <= pb_signed (f_pub s') /\ exists L', moves E ffam IMS_LIMIT (L ++ L') (f_now s') (f_pub s').
Proof.
  intros s L s' o A M R. revert s' o R. unfold fp_run. induction evs as [|e evs IH] using rev_ind; intros s' o R.
  - injection R as <- <-. split; [exact A|]. split; [lia|]. split; [lia|]. exists []. rewrite app_nil_r. exact M.
  - apply run_snoc in R as (s1 & o1 & o2 & R & <- & <- & -> & _). apply IH in R as (A1 & T1 & S1 & L1 & M1).
    destruct e as [a|n l|i buf script|i face|i timeout|dt|t| | |key|i];
      try (match goal with |- context [fp_step K ?ev] => destruct (facts_step ev s1 ltac:(discriminate) A1) as (B & Et & W) end;
           split; [exact B|]; destruct (W _ M1) as (L' & M' & _ & S2 & _); (split; [lia|]); (split; [lia|]); exists (L1 ++ L'); rewrite Et, app_assoc; exact M').
    split; [exact A1|]. cbn. split; [lia|]. split; [exact S1|]. exists L1. apply mv_time, M1.
Qed.
Lemma fp_start_moves sys evs s o : fp_start K sys evs = Some (s, o) -> kept_keys s /\
  exists L, moves E ffam IMS_LIMIT L (f_now s) (f_pub s).
Proof.
  unfold fp_start, fp_init. intros R.
  destruct (facts_send (fp_blank K sys)) as (A & B & W); [constructor|].
  destruct (W [] (mv_new _ _ _ _)) as (L & M & _).
  destruct (send_sync_interest K (fp_blank K sys)) as [[s0 o0] [u|x|u|]] eqn:Q; try discriminate.
  unfold st, outs in A, B, M. cbn [fst snd app] in A, B, M. rewrite <- B in M.
  destruct (fp_run K s0 evs) as [[s' o']|] eqn:Ru; [|discriminate]. injection R as <- <-.
  destruct (fp_run_more evs s0 L s' o' A M Ru) as (X & _ & _ & L' & Y). split; [exact X|eauto].
Qed.
End Full.
