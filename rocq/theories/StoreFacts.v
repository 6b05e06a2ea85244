(** Facts about the in-memory store and the segment publisher. *)
From Coq Require Import List NArith Bool Lia Arith Permutation.
From Verif Require Import Base BaseFacts Tlv TlvFacts Store.
Import ListNotations.

(** ** Order of names and prefixes *)
Lemma name_cmp_prefix n z : name_cmp n (n ++ z) <> Gt.
Proof.
  induction n as [|x n IH]; simpl.
  - destruct z; discriminate.
  - assert (comp_cmp x x = Eq) as -> by (apply comp_cmp_eq; reflexivity). exact IH.
Qed.
Lemma between_prefix n y z :
  name_cmp n y <> Gt -> name_cmp y (n ++ z) <> Gt -> is_prefix n y = true.
Proof.
  revert y z; induction n as [|x n IH]; intros y z H1 H2; simpl; auto.
  destruct y as [|c y]; simpl in *; [congruence|].
  destruct (comp_cmp x c) eqn:E.
  - apply comp_cmp_eq in E. subst c.
    assert (comp_eqb x x = true) as -> by (apply comp_eqb_eq; reflexivity).
    assert (comp_cmp x x = Eq) as Ex by (apply comp_cmp_eq; reflexivity). rewrite Ex in H2.
    simpl. eapply IH; eauto.
  - rewrite (comp_cmp_antisym x c), E in H2. simpl in H2. congruence.
  - congruence.
Qed.
Lemma name_cmp_le_trans a b c :
  name_cmp a b <> Gt -> name_cmp b c <> Gt -> name_cmp a c <> Gt.
Proof.
  intros H1 H2. destruct (name_cmp a b) eqn:E1; try congruence.
  - apply name_cmp_eq in E1. subst. exact H2.
  - destruct (name_cmp b c) eqn:E2; try congruence.
    + apply name_cmp_eq in E2. subst. congruence.
    + rewrite (name_cmp_trans _ _ _ E1 E2). discriminate.
Qed.

(** ** find *)
Lemma lower_bound_None n s :
  lower_bound n s = None <-> forall e, In e s -> name_cmp n (full_name e) = Gt.
Proof.
  induction s as [|d s IH]; simpl; [split; [contradiction|auto]|].
  destruct (name_cmp n (full_name d)) eqn:E.
  - split; [|intros H; specialize (H d (or_introl eq_refl)); congruence].
    destruct (lower_bound n s) as [e|]; [destruct (name_cmp (full_name d) (full_name e))|]; discriminate.
  - split; [|intros H; specialize (H d (or_introl eq_refl)); congruence].
    destruct (lower_bound n s) as [e|]; [destruct (name_cmp (full_name d) (full_name e))|]; discriminate.
  - rewrite IH. split; [intros H e [<-|He]; auto|auto].
Qed.
Lemma lower_bound_Some n s d :
  lower_bound n s = Some d ->
  In d s /\ name_cmp n (full_name d) <> Gt /\
  forall e, In e s -> name_cmp n (full_name e) <> Gt -> name_cmp (full_name d) (full_name e) <> Gt.
Proof.
  revert d; induction s as [|x s IH]; intros d; simpl; [discriminate|].
  assert (Hsome : forall r, r <> Gt -> name_cmp n (full_name x) = r ->
    match lower_bound n s with
    | Some e => match name_cmp (full_name x) (full_name e) with Gt => Some e | _ => Some x end
    | None => Some x
    end = Some d ->
    (x = d \/ In d s) /\ name_cmp n (full_name d) <> Gt /\
    forall e, x = e \/ In e s -> name_cmp n (full_name e) <> Gt ->
      name_cmp (full_name d) (full_name e) <> Gt).
  { intros r Hr Hx H. destruct (lower_bound n s) as [e|] eqn:El.
    - destruct (IH e eq_refl) as (I1 & I2 & I3).
      destruct (name_cmp (full_name x) (full_name e)) eqn:Exe; injection H as <-.
      + split; [auto|split; [congruence|]]. intros f [<-|Hf] Hn; [rewrite name_cmp_refl; discriminate|].
        apply name_cmp_eq in Exe. rewrite Exe. apply I3; auto.
      + split; [auto|split; [congruence|]]. intros f [<-|Hf] Hn; [rewrite name_cmp_refl; discriminate|].
        eapply name_cmp_le_trans; [|apply I3; auto]. congruence.
      + split; [auto|split; [auto|]]. intros f [<-|Hf] Hn; [|apply I3; auto].
        rewrite name_cmp_antisym, Exe. discriminate.
    - injection H as <-. split; [auto|split; [congruence|]].
      intros f [<-|Hf] Hn; [rewrite name_cmp_refl; discriminate|].
      apply (proj1 (lower_bound_None n s)) in Hf; auto; congruence. }
  destruct (name_cmp n (full_name x)) eqn:Ex.
  - apply (Hsome Eq); congruence.
  - apply (Hsome Lt); congruence.
  - intros H. apply IH in H as (I1 & I2 & I3). split; [auto|split; auto].
    intros f [<-|Hf] Hn; [congruence|auto].
Qed.

Lemma store_find_Some n s d :
  store_find n s = Some d ->
  In d s /\ is_prefix n (full_name d) = true /\
  forall e, In e s -> is_prefix n (full_name e) = true ->
    name_cmp (full_name d) (full_name e) <> Gt.
Proof.
  unfold store_find. destruct (lower_bound n s) as [e|] eqn:E; [|discriminate].
  destruct (is_prefix n (full_name e)) eqn:P; [|discriminate]. intros [= ->].
  apply lower_bound_Some in E as (I1 & I2 & I3). split; [auto|split; auto].
  intros f Hf Pf. apply I3; auto. apply is_prefix_iff in Pf as (r & ->). apply name_cmp_prefix.
Qed.
Lemma store_find_None n s :
  store_find n s = None <-> forall e, In e s -> is_prefix n (full_name e) = false.
Proof.
  split.
  - intros H e He. destruct (is_prefix n (full_name e)) eqn:P; auto. exfalso.
    unfold store_find in H. destruct (lower_bound n s) as [d|] eqn:E.
    + apply lower_bound_Some in E as (I1 & I2 & I3).
      apply is_prefix_iff in P as (r & P).
      assert (is_prefix n (full_name d) = true) as Pd.
      { apply (between_prefix n _ r); auto. rewrite <- P. apply I3; auto.
        rewrite P. apply name_cmp_prefix. }
      rewrite Pd in H. discriminate.
    + pose proof (proj1 (lower_bound_None n s) E e He) as G.
      apply is_prefix_iff in P as (r & P). rewrite P in G.
      exact (name_cmp_prefix n r G).
  - intros H. destruct (store_find n s) as [d|] eqn:E; auto.
    apply store_find_Some in E as (I1 & I2 & _). rewrite H in I2 by auto. discriminate.
Qed.
Lemma store_find_only n s d :
  In d s -> is_prefix n (full_name d) = true ->
  (forall e, In e s -> is_prefix n (full_name e) = true -> e = d) ->
  store_find n s = Some d.
Proof.
  intros Hi Hp Hu. destruct (store_find n s) as [e|] eqn:E.
  - apply store_find_Some in E as (I1 & I2 & _). f_equal. apply Hu; auto.
  - rewrite (proj1 (store_find_None n s) E d Hi) in Hp. discriminate.
Qed.
Lemma full_name_prefix d : is_prefix (d_name d) (full_name d) = true.
Proof. apply is_prefix_app. Qed.

(** ** insert *)
Lemma store_insert_length limit d s :
  0 < limit -> length s <= limit -> length (store_insert limit d s) <= limit.
Proof.
  intros Hl Hs. unfold store_insert. destruct (existsb _ s); auto.
  destruct (Nat.leb_spec limit (length s)); rewrite app_length; cbn [length]; [|lia].
  rewrite skipn_length. lia.
Qed.
Lemma store_insert_In limit d s e : In e (store_insert limit d s) -> In e s \/ e = d.
Proof.
  unfold store_insert. destruct (existsb _ s); auto.
  destruct (Nat.leb limit (length s)); rewrite in_app_iff; simpl; [|intuition congruence].
  intros [H|[->|[]]]; auto. left. destruct s; simpl in *; auto.
Qed.

(** inserting packets whose full names are new and distinct: the store is a queue *)
Lemma store_insert_many limit ds s :
  0 < limit -> length s <= limit ->
  NoDup (map full_name ds) ->
  (forall d e, In d ds -> In e s -> full_name e <> full_name d) ->
  fold_left (fun s d => store_insert limit d s) ds s =
    skipn (length s + length ds - limit) (s ++ ds).
Proof.
  intros Hl. revert s; induction ds as [|d ds IH]; intros s Hs Hnd Hnew; cbn [fold_left].
  - rewrite app_nil_r. simpl. rewrite Nat.add_0_r.
    replace (length s - limit) with 0 by lia. reflexivity.
  - inversion Hnd as [|? ? Hd Hnd']; subst.
    assert (store_insert limit d s =
            if Nat.leb limit (length s) then skipn 1 s ++ [d] else s ++ [d]) as Es.
    { unfold store_insert.
      destruct (existsb (fun e => name_eqb (full_name e) (full_name d)) s) eqn:Ex; auto.
      apply existsb_exists in Ex as (e & He & Hq). apply name_eqb_eq in Hq.
      exfalso. apply (Hnew d e); simpl; auto. }
    rewrite IH; auto.
    + rewrite Es. destruct (Nat.leb_spec limit (length s)).
      * assert (length s = limit) by lia. destruct s as [|x s]; [simpl in *; lia|].
        cbn [skipn]. rewrite <- app_assoc. simpl app. rewrite app_length. simpl length in *.
        replace (length s + 1 + length ds - limit) with (length ds) by lia.
        replace (S (length s) + S (length ds) - limit) with (S (length ds)) by lia. reflexivity.
      * rewrite <- app_assoc. rewrite app_length. simpl. f_equal. lia.
    + apply store_insert_length; auto.
    + intros x e Hx He. apply store_insert_In in He as [He|He].
      * apply Hnew; simpl; auto.
      * intros Hq. apply Hd. apply in_map_iff. exists x. split; [congruence|auto].
Qed.

(** ** Segments *)
Lemma SEG_SIZE_pos : 0 < SEG_SIZE.
Proof. unfold SEG_SIZE. lia. Qed.
Lemma nseg_bounds buf :
  0 < nseg buf /\ length buf <= nseg buf * SEG_SIZE /\
  (buf <> [] -> (nseg buf - 1) * SEG_SIZE < length buf).
Proof.
  pose proof SEG_SIZE_pos as Hp. unfold nseg. destruct buf as [|b buf]; [simpl; intuition lia|].
  set (l := length (b :: buf)). assert (0 < l) as Hl by (unfold l; simpl; lia). clearbody l.
  pose proof (Nat.div_mod (l + (SEG_SIZE - 1)) SEG_SIZE ltac:(lia)) as Hd.
  pose proof (Nat.mod_upper_bound (l + (SEG_SIZE - 1)) SEG_SIZE ltac:(lia)) as Hm.
  set (q := (l + (SEG_SIZE - 1)) / SEG_SIZE) in *.
  assert (q <> 0) as Hq. { intros Z. rewrite Z in Hd. lia. }
  split; [lia|split; [nia|intros _; nia]].
Qed.
Lemma skipn_skipn_add {A} a b (l : list A) : skipn a (skipn b l) = skipn (b + a) l.
Proof.
  revert l; induction b as [|b IH]; intros l; [reflexivity|].
  destruct l; cbn [skipn Nat.add]; [destruct a; reflexivity|apply IH].
Qed.
Lemma concat_chunks {A} k (buf : list A) : 0 < k -> forall n, length buf <= n * k ->
  concat (map (fun i => firstn k (skipn (i * k) buf)) (seq 0 n)) = buf.
Proof.
  intros Hk n. revert buf; induction n as [|n IH]; intros buf H.
  - destruct buf; simpl in *; [reflexivity|lia].
  - cbn [seq map concat]. rewrite Nat.mul_0_l. cbn [skipn].
    rewrite <- seq_shift, map_map.
    rewrite (map_ext _ (fun i => firstn k (skipn (i * k) (skipn k buf)))).
    + rewrite IH; [apply firstn_skipn|]. rewrite skipn_length. simpl in H. lia.
    + intros i. rewrite skipn_skipn_add. f_equal.
Qed.
Lemma segment_length E k n b f : length (segment E k n b f) = nseg b.
Proof. unfold segment. rewrite map_length, seq_length. reflexivity. Qed.
Lemma segment_nth E k n b f i :
  i < nseg b -> nth_error (segment E k n b f) i = Some (seg_data E k n b f i).
Proof.
  intros H. unfold segment. rewrite nth_error_map.
  rewrite (nth_error_nth' _ 0) by (rewrite seq_length; auto). rewrite seq_nth by auto. reflexivity.
Qed.
Lemma segment_In E k n b f d :
  In d (segment E k n b f) <-> exists i, i < nseg b /\ d = seg_data E k n b f i.
Proof.
  unfold segment. rewrite in_map_iff. split.
  - intros (i & <- & H). apply in_seq in H. exists i. split; [lia|auto].
  - intros (i & H & ->). exists i. split; auto. apply in_seq. lia.
Qed.
Lemma segment_content E k n b f : concat (map d_content (segment E k n b f)) = b.
Proof.
  unfold segment. rewrite map_map. cbn [d_content seg_data].
  apply concat_chunks; [apply SEG_SIZE_pos|]. apply nseg_bounds.
Qed.

Lemma append_segment_inj p q n k :
  (n < two64)%N -> (k < two64)%N -> append_segment p n = append_segment q k -> p = q /\ n = k.
Proof.
  intros Hn Hk H. unfold append_segment in H. apply app_inj_tail in H as [-> H].
  apply number_comp_inj in H; tauto.
Qed.
Lemma seg_name_prefix p i e :
  (N.of_nat i < two64)%N -> forall j d,
  (N.of_nat j < two64)%N -> full_name e = append_segment p (N.of_nat j) ++ [d] ->
  is_prefix (append_segment p (N.of_nat i)) (full_name e) = true -> i = j.
Proof.
  intros Hi j d Hj He Hp. rewrite He in Hp. apply is_prefix_iff in Hp as (r & Hp).
  unfold append_segment in Hp. rewrite <- !app_assoc in Hp. apply app_inv_head in Hp.
  cbn [app] in Hp. injection Hp as Hp _.
  assert (number_comp TYPE_SEGMENT (N.of_nat j) = number_comp TYPE_SEGMENT (N.of_nat i)) as Hc
    by (unfold number_comp; rewrite Hp; reflexivity).
  apply number_comp_inj in Hc; auto. lia.
Qed.

(** ** publish *)
Lemma insert_segments_eq now fresh ds : forall p,
  insert_segments now fresh ds p =
  mkPub (fold_left (fun s d => store_insert (pb_limit p) d s) ds (pb_store p)) (pb_limit p)
        (pb_timers p ++ map (fun d => ((now + fresh)%N, d_name d)) ds)
        (pb_published p) (pb_signed p + length ds).
Proof.
  induction ds as [|d ds IH]; intros p.
  - simpl. rewrite app_nil_r, Nat.add_0_r. destruct p; reflexivity.
  - unfold insert_segments in *. cbn [fold_left]. rewrite IH. cbn [pb_store pb_limit pb_timers
      pb_published pb_signed map length]. rewrite <- app_assoc. cbn [app]. f_equal. lia.
Qed.
Lemma fold_insert_length limit ds s :
  0 < limit -> length s <= limit ->
  length (fold_left (fun s d => store_insert limit d s) ds s) <= limit.
Proof.
  intros Hl. revert s; induction ds as [|d ds IH]; intros s Hs; cbn [fold_left]; auto.
  apply IH. apply store_insert_length; auto.
Qed.
Lemma fold_insert_In limit ds s e :
  In e (fold_left (fun s d => store_insert limit d s) ds s) -> In e s \/ In e ds.
Proof.
  revert s; induction ds as [|d ds IH]; intros s; cbn [fold_left]; auto.
  intros H. apply IH in H as [H|H]; [|right; right; auto].
  apply store_insert_In in H as [H|H]; subst; simpl; auto.
Qed.
Lemma NoDup_map_inj {A B} (f : A -> B) l :
  NoDup l -> (forall x y, In x l -> In y l -> f x = f y -> x = y) -> NoDup (map f l).
Proof.
  induction 1 as [|x l Hx Hn IH]; intros Hf; simpl; constructor.
  - rewrite in_map_iff. intros (y & E & Hy). apply Hx.
    rewrite (Hf x y); simpl; auto.
  - apply IH. intros a b Ha Hb. apply Hf; simpl; auto.
Qed.
Lemma segment_full_NoDup E k n b f :
  (N.of_nat (nseg b) <= two64)%N -> NoDup (map full_name (segment E k n b f)).
Proof.
  intros Hb. unfold segment. rewrite map_map. apply NoDup_map_inj; [apply seq_NoDup|].
  intros x y Hx Hy He. apply in_seq in Hx, Hy. unfold full_name in He. cbn [d_name seg_data] in He.
  apply app_inj_tail in He as [He _].
  apply append_segment_inj in He as [_ He]; [lia| |]; lia.
Qed.
