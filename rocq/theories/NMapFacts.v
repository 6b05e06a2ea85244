(** Facts about maps keyed by names. *)
From Coq Require Import List NArith Bool Lia Sorted.
From Verif Require Import Base BaseFacts Tlv TlvFacts NMap.
Import ListNotations.

Section Facts.
Context {V : Type}.
Implicit Types (m : nmap V) (k : name) (v : V).

Lemma nm_find_set_same k v m : nm_find k (nm_set k v m) = Some v.
Proof.
  induction m as [|[k' v'] m IH]; simpl.
  - rewrite name_eqb_refl. reflexivity.
  - destruct (name_cmp k k') eqn:E; simpl; rewrite ?name_eqb_refl; auto.
    destruct (name_eqb k k') eqn:E'; auto.
    apply name_eqb_eq in E'. subst. rewrite name_cmp_refl in E. discriminate.
Qed.

Lemma nm_find_set_other k k' v m : k' <> k -> nm_find k' (nm_set k v m) = nm_find k' m.
Proof.
  intros H. induction m as [|[k1 v1] m IH]; simpl.
  - rewrite (proj2 (name_eqb_neq k' k)); auto.
  - destruct (name_cmp k k1) eqn:E; simpl.
    + apply name_cmp_eq in E. subst k1. rewrite (proj2 (name_eqb_neq k' k)); auto.
    + rewrite (proj2 (name_eqb_neq k' k)); auto.
    + destruct (name_eqb k' k1); auto.
Qed.

Lemma nm_find_set k k' v m :
  nm_find k' (nm_set k v m) = if name_eqb k' k then Some v else nm_find k' m.
Proof.
  destruct (name_eqb k' k) eqn:E.
  - apply name_eqb_eq in E. subst. apply nm_find_set_same.
  - apply nm_find_set_other. apply name_eqb_neq. auto.
Qed.

Definition nm_sorted m : Prop := StronglySorted name_lt (map fst m).

Lemma nm_sorted_nil : nm_sorted [].
Proof. constructor. Qed.

Lemma nm_set_keys_Forall k v m (P : name -> Prop) :
  P k -> Forall P (map fst m) -> Forall P (map fst (nm_set k v m)).
Proof.
  intros Hk H. induction m as [|[k1 v1] m IH]; simpl in *; [constructor; auto|].
  inversion H; subst. destruct (name_cmp k k1); simpl; constructor; auto.
Qed.

Lemma nm_set_sorted k v m : nm_sorted m -> nm_sorted (nm_set k v m).
Proof.
  unfold nm_sorted. induction m as [|[k1 v1] m IH]; simpl; intros H.
  - repeat constructor.
  - inversion H; subst. destruct (name_cmp k k1) eqn:E; simpl.
    + apply name_cmp_eq in E. subst. constructor; auto.
    + constructor; auto. constructor; auto.
      rewrite Forall_forall in *. intros x Hx. eapply name_lt_trans; [exact E|auto].
    + constructor; auto. apply nm_set_keys_Forall; auto. apply name_cmp_gt; auto.
Qed.

Lemma nm_erase_Forall k m (P : name -> Prop) :
  Forall P (map fst m) -> Forall P (map fst (nm_erase k m)).
Proof.
  induction m as [|[k1 v1] m IH]; simpl; intros H; auto. inversion H; subst.
  destruct (name_eqb k k1); simpl; auto.
Qed.

Lemma nm_erase_sorted k m : nm_sorted m -> nm_sorted (nm_erase k m).
Proof.
  unfold nm_sorted. induction m as [|[k1 v1] m IH]; simpl; intros H; auto.
  inversion H; subst. destruct (name_eqb k k1); simpl; auto.
  constructor; auto. apply nm_erase_Forall; auto.
Qed.

Lemma nm_emplace_sorted k v m : nm_sorted m -> nm_sorted (nm_emplace k v m).
Proof. unfold nm_emplace. destruct (nm_find k m); auto using nm_set_sorted. Qed.

Lemma nm_find_In k v m : nm_find k m = Some v -> In (k, v) m.
Proof.
  induction m as [|[k1 v1] m IH]; simpl; [discriminate|].
  destruct (name_eqb k k1) eqn:E; auto.
  apply name_eqb_eq in E. subst. intros [= ->]. auto.
Qed.

Lemma nm_find_None k m : nm_find k m = None <-> ~ In k (map fst m).
Proof.
  induction m as [|[k1 v1] m IH]; simpl; [tauto|].
  destruct (name_eqb k k1) eqn:E.
  - apply name_eqb_eq in E. subst. split; [discriminate|]. intros H. exfalso. auto.
  - apply name_eqb_neq in E. rewrite IH. intuition congruence.
Qed.

Lemma nm_sorted_NoDup m : nm_sorted m -> NoDup (map fst m).
Proof.
  unfold nm_sorted. induction 1; constructor; auto.
  intros Hin. rewrite Forall_forall in H0. apply H0 in Hin. eapply name_lt_irrefl; eauto.
Qed.

Lemma nm_In_find k v m : nm_sorted m -> In (k, v) m -> nm_find k m = Some v.
Proof.
  intros Hs. apply nm_sorted_NoDup in Hs. induction m as [|[k1 v1] m IH]; simpl; [tauto|].
  simpl in Hs. inversion Hs; subst. intros [[= -> ->]|Hin].
  - rewrite name_eqb_refl. reflexivity.
  - destruct (name_eqb k k1) eqn:E; auto. apply name_eqb_eq in E. subst.
    exfalso. apply H1. apply in_map_iff. exists (k1, v). auto.
Qed.

Lemma nm_find_erase_other k k' m : k' <> k -> nm_find k' (nm_erase k m) = nm_find k' m.
Proof.
  intros H. induction m as [|[k1 v1] m IH]; simpl; auto.
  destruct (name_eqb k k1) eqn:E; simpl.
  - apply name_eqb_eq in E. subst. rewrite (proj2 (name_eqb_neq k' k1)); auto.
  - destruct (name_eqb k' k1); auto.
Qed.

Lemma nm_find_erase_same k m : nm_sorted m -> nm_find k (nm_erase k m) = None.
Proof.
  intros Hs. apply nm_sorted_NoDup in Hs. induction m as [|[k1 v1] m IH]; simpl; auto.
  simpl in Hs. inversion Hs; subst. destruct (name_eqb k k1) eqn:E; simpl.
  - apply name_eqb_eq in E. subst. apply nm_find_None. auto.
  - rewrite E. auto.
Qed.

Lemma nm_find_erase k k' m :
  nm_sorted m -> nm_find k' (nm_erase k m) = if name_eqb k' k then None else nm_find k' m.
Proof.
  intros Hs. destruct (name_eqb k' k) eqn:E.
  - apply name_eqb_eq in E. subst. apply nm_find_erase_same; auto.
  - apply nm_find_erase_other, name_eqb_neq; auto.
Qed.

(** maps are extensional *)
Lemma nm_ext m m' :
  nm_sorted m -> nm_sorted m' -> (forall k, nm_find k m = nm_find k m') -> m = m'.
Proof.
  unfold nm_sorted. revert m'. induction m as [|[k v] m IH]; intros m' Hs Hs' H.
  - destruct m' as [|[k v] m']; auto. specialize (H k). simpl in H. rewrite name_eqb_refl in H. discriminate.
  - destruct m' as [|[k' v'] m'].
    + specialize (H k). simpl in H. rewrite name_eqb_refl in H. discriminate.
    + simpl in Hs, Hs'. inversion Hs; subst. inversion Hs'; subst.
      rewrite Forall_forall in *.
      assert (k = k') as <-.
      { pose proof (H k) as Hk. pose proof (H k') as Hk'. simpl in Hk, Hk'.
        rewrite name_eqb_refl in Hk, Hk'.
        destruct (name_eqb k k') eqn:E; [apply name_eqb_eq; auto|]. exfalso.
        rewrite (name_eqb_sym k' k), E in Hk'.
        assert (In k (map fst m')) as I1 by
          (apply in_map_iff; symmetry in Hk; apply nm_find_In in Hk; exists (k, v); auto).
        assert (In k' (map fst m)) as I2 by
          (apply in_map_iff; apply nm_find_In in Hk'; exists (k', v'); auto).
        apply H3 in I2. apply H5 in I1.
        eapply name_lt_irrefl, name_lt_trans; eauto. }
      pose proof (H k) as Hk. simpl in Hk. rewrite name_eqb_refl in Hk. injection Hk as <-.
      f_equal. apply IH; auto. intros x.
      specialize (H x). simpl in H. destruct (name_eqb x k) eqn:E; auto.
      apply name_eqb_eq in E. subst.
      assert (nm_find k m = None) as ->.
      { apply nm_find_None. intros Hin. apply H3 in Hin. eapply name_lt_irrefl; eauto. }
      symmetry. apply nm_find_None. intros Hin. apply H5 in Hin. eapply name_lt_irrefl; eauto.
Qed.

Lemma nm_mem_find k m : nm_mem k m = true <-> exists v, nm_find k m = Some v.
Proof.
  unfold nm_mem. destruct (nm_find k m); split; eauto; try discriminate. intros (? & [=]).
Qed.

Lemma nm_In_keys k m : In k (nm_keys m) <-> exists v, nm_find k m = Some v.
Proof.
  destruct (nm_find k m) as [v|] eqn:E.
  - split; eauto. intros _. apply nm_find_In in E. apply in_map_iff. exists (k, v); auto.
  - apply nm_find_None in E. split; [contradiction|intros (? & [=])].
Qed.

Lemma nm_erase_absent k m : nm_find k m = None -> nm_erase k m = m.
Proof.
  induction m as [|[k1 v1] m IH]; simpl; auto. destruct (name_eqb k k1); [discriminate|].
  intros H. rewrite IH; auto.
Qed.

Lemma nm_erase_In k k' v m : In (k', v) (nm_erase k m) -> In (k', v) m.
Proof.
  induction m as [|[k1 v1] m IH]; simpl; auto. destruct (name_eqb k k1); simpl; intuition.
Qed.

Lemma nm_set_In k v k' v' m : In (k', v') (nm_set k v m) -> (k' = k /\ v' = v) \/ In (k', v') m.
Proof.
  induction m as [|[k1 v1] m IH]; simpl.
  - intros [[= <- <-]|[]]; auto.
  - destruct (name_cmp k k1); simpl.
    + intros [[= <- <-]|]; auto.
    + intros [[= <- <-]|]; auto.
    + intros [[= <- <-]|H]; auto. apply IH in H as [|]; auto.
Qed.
End Facts.
