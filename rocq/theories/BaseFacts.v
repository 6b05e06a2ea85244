(** Elementary facts about the vocabulary of Base.v. *)
From Coq Require Import List NArith ZArith Bool Lia Sorted Arith.
From Coq.Strings Require Import Byte.
From Verif Require Import Base.
Import ListNotations.
Local Open Scope N_scope.
Ltac Zify.zify_post_hook ::= Z.to_euclidean_division_equations.

Lemma b2n_lt b : b2n b < 256.
Proof. unfold b2n. pose proof (Byte.to_N_bounded b). lia. Qed.

Lemma b2n_n2b n : b2n (n2b n) = n mod 256.
Proof.
  unfold n2b, b2n.
  destruct (Byte.of_N (n mod 256)) eqn:E.
  - apply Byte.to_of_N in E. exact E.
  - apply Byte.of_N_None_iff in E. pose proof (N.mod_upper_bound n 256). lia.
Qed.

Lemma n2b_b2n b : n2b (b2n b) = b.
Proof.
  unfold n2b. rewrite N.mod_small by apply b2n_lt.
  unfold b2n. rewrite Byte.of_to_N. reflexivity.
Qed.

Lemma b2n_inj a b : b2n a = b2n b -> a = b.
Proof. intros H. rewrite <- (n2b_b2n a), <- (n2b_b2n b), H. reflexivity. Qed.

Lemma byte_eqb_spec a b : byte_eqb a b = true <-> a = b.
Proof.
  unfold byte_eqb. rewrite N.eqb_eq. split; [apply b2n_inj | intros ->; reflexivity].
Qed.

Lemma bytes_eqb_spec a b : bytes_eqb a b = true <-> a = b.
Proof.
  revert b; induction a as [|x a IH]; destruct b as [|y b]; simpl; try (split; congruence).
  rewrite andb_true_iff, byte_eqb_spec, IH. split; [intros [-> ->]|intros [= -> ->]]; auto.
Qed.

(** ** Big-endian *)
Lemma be_enc_length k n : length (be_enc k n) = k.
Proof.
  revert n; induction k as [|k IH]; intros n; simpl; auto.
  rewrite app_length, IH. simpl. rewrite Nat.add_comm. reflexivity.
Qed.

Lemma be_dec_app a b : be_dec (a ++ [b]) = be_dec a * 256 + b2n b.
Proof. unfold be_dec. rewrite fold_left_app. reflexivity. Qed.

Lemma pow256_S k : 256 ^ N.of_nat (S k) = 256 * 256 ^ N.of_nat k.
Proof. rewrite Nat2N.inj_succ, N.pow_succ_r'. reflexivity. Qed.

Lemma pow256_pos k : 0 < 256 ^ N.of_nat k.
Proof. apply N.neq_0_lt_0, N.pow_nonzero. discriminate. Qed.

Lemma be_dec_enc k n : be_dec (be_enc k n) = n mod 256 ^ N.of_nat k.
Proof.
  revert n; induction k as [|k IH]; intros n.
  - cbn. rewrite N.mod_1_r. reflexivity.
  - cbn [be_enc]. rewrite be_dec_app, IH, b2n_n2b, pow256_S.
    pose proof (pow256_pos k).
    rewrite N.mod_mul_r by lia. lia.
Qed.

Lemma be_dec_enc_small k n : n < 256 ^ N.of_nat k -> be_dec (be_enc k n) = n.
Proof. intros. rewrite be_dec_enc. apply N.mod_small; assumption. Qed.

Lemma be_dec_bound bs : be_dec bs < 256 ^ N.of_nat (length bs).
Proof.
  induction bs as [|b bs IH] using rev_ind.
  - cbn. lia.
  - rewrite be_dec_app, app_length. cbn [length]. rewrite Nat.add_1_r, pow256_S.
    pose proof (b2n_lt b). nia.
Qed.

Lemma be_enc_dec bs : be_enc (length bs) (be_dec bs) = bs.
Proof.
  induction bs as [|b bs IH] using rev_ind; [reflexivity|].
  rewrite app_length. cbn [length]. rewrite Nat.add_1_r. cbn [be_enc].
  rewrite be_dec_app. pose proof (b2n_lt b).
  replace ((be_dec bs * 256 + b2n b) / 256) with (be_dec bs) by lia.
  rewrite IH. f_equal. f_equal.
  apply b2n_inj. rewrite b2n_n2b. lia.
Qed.

Lemma be_enc_inj k a b :
  a < 256 ^ N.of_nat k -> b < 256 ^ N.of_nat k -> be_enc k a = be_enc k b -> a = b.
Proof.
  intros Ha Hb H. rewrite <- (be_dec_enc_small k a), <- (be_dec_enc_small k b), H; auto.
Qed.

(** ** Little-endian *)
Lemma le_enc_length k n : length (le_enc k n) = k.
Proof. revert n; induction k; intros; simpl; auto. Qed.

Lemma le_dec_enc k n : le_dec (le_enc k n) = n mod 256 ^ N.of_nat k.
Proof.
  revert n; induction k as [|k IH]; intros n.
  - cbn. rewrite N.mod_1_r. reflexivity.
  - cbn [le_enc le_dec]. rewrite IH, b2n_n2b, pow256_S.
    pose proof (pow256_pos k). rewrite N.mod_mul_r by lia. lia.
Qed.

Lemma le_dec_bound bs : le_dec bs < 256 ^ N.of_nat (length bs).
Proof.
  induction bs as [|b bs IH]; [cbn; lia|].
  cbn [le_dec length]. rewrite pow256_S. pose proof (b2n_lt b). nia.
Qed.

(** ** Two's complement *)
Lemma in_i32_iff z : in_i32 z = true <-> (i32_min <= z <= i32_max)%Z.
Proof. unfold in_i32. rewrite andb_true_iff, !Z.leb_le. reflexivity. Qed.

Lemma i32_u32_roundtrip z : in_i32 z = true -> u32_to_i32 (i32_to_u32 z) = z.
Proof.
  rewrite in_i32_iff. unfold i32_min, i32_max, u32_to_i32, i32_to_u32. intros H.
  destruct (N.ltb_spec (Z.to_N (z mod 4294967296)) 2147483648); lia.
Qed.

Lemma i32_to_u32_lt z : i32_to_u32 z < two32.
Proof. unfold i32_to_u32, two32. lia. Qed.

Lemma u32_i32_range n : n < two32 -> in_i32 (u32_to_i32 n) = true.
Proof.
  unfold two32. intros. apply in_i32_iff. unfold u32_to_i32, i32_min, i32_max.
  destruct (N.ltb_spec n 2147483648); lia.
Qed.

Lemma u32_i32_roundtrip n : n < two32 -> i32_to_u32 (u32_to_i32 n) = n.
Proof.
  unfold two32, i32_to_u32, u32_to_i32. intros.
  destruct (N.ltb_spec n 2147483648); lia.
Qed.

(** ** Words *)
Lemma w32_lt n : w32 n < two32.
Proof. apply N.mod_upper_bound. discriminate. Qed.
Lemma w64_lt n : w64 n < two64.
Proof. apply N.mod_upper_bound. discriminate. Qed.
Lemma w32_small n : n < two32 -> w32 n = n.
Proof. apply N.mod_small. Qed.
Lemma w64_small n : n < two64 -> w64 n = n.
Proof. apply N.mod_small. Qed.

Lemma lxor_lt a b k : a < 2 ^ k -> b < 2 ^ k -> N.lxor a b < 2 ^ k.
Proof.
  intros Ha Hb.
  rewrite <- (N.mod_small a (2 ^ k)), <- (N.mod_small b (2 ^ k)) by assumption.
  rewrite <- !N.land_ones.
  assert (N.lxor (N.land a (N.ones k)) (N.land b (N.ones k)) =
          N.land (N.lxor a b) (N.ones k)) as ->.
  { apply N.bits_inj. intros i. rewrite N.lxor_spec, !N.land_spec, N.lxor_spec.
    destruct (N.testbit a i), (N.testbit b i), (N.testbit (N.ones k) i); reflexivity. }
  rewrite N.land_ones. apply N.mod_upper_bound, N.pow_nonzero. discriminate.
Qed.

(** ** Outcomes *)
Lemma obind_ok {A B} (m : outcome A) (f : A -> outcome B) b :
  obind m f = Ok b -> exists a, m = Ok a /\ f a = Ok b.
Proof. destruct m; simpl; intros; try discriminate. eauto. Qed.

(** ** std::set<uint32_t> *)
Lemma nset_insert_In x y s : In y (nset_insert x s) <-> y = x \/ In y s.
Proof.
  induction s as [|z s IH]; simpl; [intuition|].
  destruct (N.compare_spec x z); subst; simpl; rewrite ?IH; intuition.
Qed.

Lemma nset_mem_In x s : nset_mem x s = true <-> In x s.
Proof.
  induction s as [|y s IH]; simpl; [intuition discriminate|].
  rewrite orb_true_iff, N.eqb_eq, IH. intuition.
Qed.

Lemma nset_insert_HdRel x y s : y < x -> HdRel N.lt y s -> HdRel N.lt y (nset_insert x s).
Proof.
  intros Hx H. destruct s as [|z s]; simpl; [constructor; auto|].
  inversion H; subst.
  destruct (N.compare_spec x z); subst; constructor; auto.
Qed.

Lemma nset_insert_sorted x s : Sorted N.lt s -> Sorted N.lt (nset_insert x s).
Proof.
  induction s as [|y s IH]; simpl; intros H; [repeat constructor|].
  inversion H; subst.
  destruct (N.compare_spec x y); subst; auto.
  constructor; auto. apply nset_insert_HdRel; auto.
Qed.

Lemma sorted_lt_NoDup s : Sorted N.lt s -> NoDup s.
Proof.
  intros H. apply Sorted_StronglySorted in H; [|intros a b c; apply N.lt_trans].
  induction H; constructor; auto.
  intros Hin. rewrite Forall_forall in H0. specialize (H0 _ Hin). lia.
Qed.

Lemma sorted_ext (a b : list N) :
  Sorted N.lt a -> Sorted N.lt b -> (forall x, In x a <-> In x b) -> a = b.
Proof.
  intros Ha Hb.
  apply Sorted_StronglySorted in Ha; [|intros ? ? ?; apply N.lt_trans].
  apply Sorted_StronglySorted in Hb; [|intros ? ? ?; apply N.lt_trans].
  revert b Hb; induction Ha as [|x a Ha IH Hx]; intros b Hb Heq.
  - destruct b as [|y b]; auto. exfalso. apply (Heq y). left; auto.
  - destruct Hb as [|y b Hb Hy].
    + exfalso. apply (Heq x). left; auto.
    + rewrite Forall_forall in Hx, Hy.
      assert (x = y).
      { pose proof (proj1 (Heq x) (or_introl eq_refl)) as [->|Hin]; auto.
        pose proof (proj2 (Heq y) (or_introl eq_refl)) as [->|Hin']; auto.
        specialize (Hx _ Hin'). specialize (Hy _ Hin). lia. }
      subst y. f_equal. apply IH; auto.
      intros z. split; intros Hz.
      * pose proof (proj1 (Heq z) (or_intror Hz)) as [->|]; auto.
        specialize (Hx _ Hz). lia.
      * pose proof (proj2 (Heq z) (or_intror Hz)) as [->|]; auto.
        specialize (Hy _ Hz). lia.
Qed.
