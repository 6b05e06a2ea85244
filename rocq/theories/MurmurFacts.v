(** Facts about the hash: range and injectivity on 32-bit keys. *)
From Coq Require Import List NArith ZArith Lia.
From Verif Require Import Base BaseFacts Murmur.
Import ListNotations.
Local Open Scope N_scope.
Ltac Zify.zify_post_hook ::= Z.to_euclidean_division_equations.

Lemma two32_pow : two32 = 2 ^ 32.
Proof. reflexivity. Qed.

Lemma xor32_lt a b : a < two32 -> b < two32 -> N.lxor a b < two32.
Proof. rewrite two32_pow. apply lxor_lt. Qed.

Lemma shiftr32_lt a s : a < two32 -> N.shiftr a s < two32.
Proof.
  intros. rewrite N.shiftr_div_pow2.
  eapply N.le_lt_trans; [|exact H]. apply N.div_le_upper_bound.
  - apply N.pow_nonzero; discriminate.
  - assert (1 <= 2 ^ s) by (apply N.lt_pred_le, N.neq_0_lt_0, N.pow_nonzero; discriminate).
    nia.
Qed.

Lemma fmix_lt h : h < two32 -> fmix h < two32.
Proof.
  intros. unfold fmix. cbv zeta.
  apply xor32_lt; [apply w32_lt|apply shiftr32_lt, w32_lt].
Qed.

Lemma mix_k1_lt k : mix_k1 k < two32.
Proof. apply w32_lt. Qed.

Lemma murmur_body_lt bs h : h < two32 -> fst (murmur_body h bs) < two32.
Proof.
  remember (length bs) as n eqn:E. revert bs h E.
  induction n as [n IH] using (well_founded_induction Nat.lt_wf_0).
  intros bs h E Hh. destruct bs as [|b0 [|b1 [|b2 [|b3 r]]]]; simpl; auto.
  eapply IH; [|reflexivity|apply w32_lt]. subst n. simpl. lia.
Qed.

Lemma murmur_tail_lt h t : h < two32 -> murmur_tail h t < two32.
Proof.
  intros. unfold murmur_tail.
  destruct t as [|t0 [|t1 [|t2 [|t3 r]]]]; auto; apply xor32_lt; auto using mix_k1_lt.
Qed.

Lemma murmur_lt seed bs : seed < two32 -> murmur seed bs < two32.
Proof.
  intros H. unfold murmur. pose proof (murmur_body_lt bs seed H) as Hb.
  destruct (murmur_body seed bs) as [h t]. simpl in Hb.
  apply fmix_lt, xor32_lt; [apply murmur_tail_lt; auto|apply w32_lt].
Qed.

Lemma hash32_lt seed v : seed < two32 -> hash32 seed v < two32.
Proof. apply murmur_lt. Qed.

(** ** Injectivity of the mixing steps *)
Lemma mul_odd_inj c c' :
  w32 (c * c') = 1 -> forall x y, x < two32 -> y < two32 -> w32 (x * c) = w32 (y * c) -> x = y.
Proof.
  intros Hc x y Hx Hy H.
  assert (forall z, z < two32 -> w32 (w32 (z * c) * c') = z) as Inv.
  { intros z Hz. unfold w32 in *. rewrite N.mul_mod_idemp_l by discriminate.
    rewrite <- N.mul_assoc, <- N.mul_mod_idemp_r, Hc by discriminate.
    rewrite N.mul_1_r. apply N.mod_small; auto. }
  rewrite <- (Inv x), <- (Inv y), H; auto.
Qed.

Lemma lxor_cancel_l a b c : N.lxor a b = N.lxor a c -> b = c.
Proof.
  intros H. rewrite <- (N.lxor_0_l b), <- (N.lxor_0_l c), <- (N.lxor_nilpotent a).
  rewrite !N.lxor_assoc, H. reflexivity.
Qed.

Lemma lxor_cancel_r a b c : N.lxor b a = N.lxor c a -> b = c.
Proof. rewrite !(N.lxor_comm _ a). apply lxor_cancel_l. Qed.

Lemma xorshift_inj s x y :
  s <> 0 -> N.lxor x (N.shiftr x s) = N.lxor y (N.shiftr y s) -> x = y.
Proof.
  intros Hs H.
  assert (N.lxor x y = N.shiftr (N.lxor x y) s) as E.
  { rewrite N.shiftr_lxor.
    apply (lxor_cancel_r (N.shiftr x s)).
    rewrite N.lxor_assoc, (N.lxor_comm y), <- N.lxor_assoc, H.
    rewrite (N.lxor_comm y), N.lxor_assoc, N.lxor_nilpotent, N.lxor_0_r.
    rewrite (N.lxor_comm (N.shiftr x s)), N.lxor_assoc, N.lxor_nilpotent, N.lxor_0_r.
    reflexivity. }
  apply N.lxor_eq.
  remember (N.lxor x y) as d. clear - Hs E.
  destruct (N.eq_dec d 0) as [|Hd]; auto. exfalso.
  rewrite N.shiftr_div_pow2 in E.
  assert (2 <= 2 ^ s).
  { change 2 with (2 ^ 1) at 1. apply N.pow_le_mono_r; lia. }
  assert (d / 2 ^ s < d); [|lia].
  apply N.div_lt; lia.
Qed.

Lemma fmix_inj x y : x < two32 -> y < two32 -> fmix x = fmix y -> x = y.
Proof.
  intros Hx Hy H. unfold fmix in H. cbv zeta in H.
  apply xorshift_inj in H; [|discriminate].
  apply (mul_odd_inj 0xc2b2ae35 2127672349) in H; [|reflexivity| |];
    try (apply xor32_lt; [apply w32_lt|apply shiftr32_lt, w32_lt]).
  apply xorshift_inj in H; [|discriminate].
  apply (mul_odd_inj 0x85ebca6b 2781581891) in H; [|reflexivity| |];
    try (apply xor32_lt; [assumption|apply shiftr32_lt; assumption]).
  apply xorshift_inj in H; [assumption|discriminate].
Qed.

Lemma testbit_lt32 x i : x < two32 -> 32 <= i -> N.testbit x i = false.
Proof.
  intros. destruct (N.eq_dec x 0) as [->|]; [apply N.bits_0|].
  apply N.bits_above_log2. apply N.log2_lt_pow2; [lia|].
  eapply N.lt_le_trans; [exact H|]. rewrite two32_pow.
  apply N.pow_le_mono_r; lia.
Qed.

Lemma rotl32_testbit x r i :
  x < two32 -> r < 32 -> 
  N.testbit (rotl32 x r) i =
  if (i <? r) then N.testbit x (i + (32 - r))
  else if (i <? 32) then N.testbit x (i - r) else false.
Proof.
  intros Hx Hr. unfold rotl32, w32. rewrite two32_pow, N.lor_spec, N.shiftr_spec by lia.
  destruct (N.ltb_spec i r).
  - rewrite N.mod_pow2_bits_low by lia. rewrite N.shiftl_spec_low by lia. reflexivity.
  - rewrite (testbit_lt32 x (i + (32 - r))), Bool.orb_false_r by lia.
    destruct (N.ltb_spec i 32).
    + rewrite N.mod_pow2_bits_low by lia. rewrite N.shiftl_spec_high; auto; lia.
    + apply N.mod_pow2_bits_high; lia.
Qed.

Lemma rotl32_inj r x y :
  r < 32 -> x < two32 -> y < two32 -> rotl32 x r = rotl32 y r -> x = y.
Proof.
  intros Hr Hx Hy H. apply N.bits_inj. intros j.
  destruct (N.ltb_spec j 32) as [Hj|Hj].
  2:{ rewrite !testbit_lt32; auto. }
  destruct (N.ltb_spec j (32 - r)) as [Hl|Hl].
  - pose proof (f_equal (fun z => N.testbit z (j + r)) H) as E. cbv beta in E.
    rewrite !rotl32_testbit in E by assumption.
    destruct (N.ltb_spec (j + r) r); [lia|].
    destruct (N.ltb_spec (j + r) 32); [|lia].
    replace (j + r - r) with j in E by lia. exact E.
  - pose proof (f_equal (fun z => N.testbit z (j - (32 - r))) H) as E. cbv beta in E.
    rewrite !rotl32_testbit in E by assumption.
    destruct (N.ltb_spec (j - (32 - r)) r); [|lia].
    replace (j - (32 - r) + (32 - r)) with j in E by lia. exact E.
Qed.

Lemma rotl32_lt x r : x < two32 -> r < 32 -> rotl32 x r < two32.
Proof.
  intros Hx Hr. destruct (N.eq_dec (rotl32 x r) 0) as [->|E]; [reflexivity|].
  rewrite two32_pow. apply N.log2_lt_pow2; [lia|].
  destruct (N.ltb_spec (N.log2 (rotl32 x r)) 32) as [|Hge]; auto. exfalso.
  pose proof (N.bit_log2 _ E) as Hb.
  rewrite rotl32_testbit in Hb by assumption.
  destruct (N.ltb_spec (N.log2 (rotl32 x r)) r); [lia|].
  destruct (N.ltb_spec (N.log2 (rotl32 x r)) 32); [lia|discriminate].
Qed.

Lemma mix_k1_inj x y : x < two32 -> y < two32 -> mix_k1 x = mix_k1 y -> x = y.
Proof.
  intros Hx Hy H. unfold mix_k1 in H.
  apply (mul_odd_inj c2 1458385051) in H; [|reflexivity| |];
    try (apply rotl32_lt; [apply w32_lt|lia]).
  apply rotl32_inj in H; try apply w32_lt; [|lia].
  apply (mul_odd_inj c1 3739302833) in H; auto.
Qed.

Lemma body_step_lt h k : body_step h k < two32.
Proof. apply w32_lt. Qed.

Lemma add_const_inj c x y :
  x < two32 -> y < two32 -> w32 (w32 x + c) = w32 (w32 y + c) -> x = y.
Proof. unfold w32, two32. intros. lia. Qed.

Lemma body_step_inj h x y :
  h < two32 -> x < two32 -> y < two32 -> body_step h x = body_step h y -> x = y.
Proof.
  intros Hh Hx Hy H. unfold body_step in H.
  set (a := rotl32 (N.lxor h (mix_k1 x)) 13) in *.
  set (b := rotl32 (N.lxor h (mix_k1 y)) 13) in *.
  assert (Ha : a < two32) by (apply rotl32_lt; [apply xor32_lt; auto using mix_k1_lt|lia]).
  assert (Hb : b < two32) by (apply rotl32_lt; [apply xor32_lt; auto using mix_k1_lt|lia]).
  assert (w32 (a * 5) = w32 (b * 5)) as E.
  { clearbody a b. unfold w32, two32 in *. lia. }
  apply (mul_odd_inj 5 3435973837) in E; [|reflexivity|assumption|assumption].
  subst a b. apply rotl32_inj in E; try (apply xor32_lt; auto using mix_k1_lt); [|lia].
  apply lxor_cancel_l in E. apply mix_k1_inj in E; auto.
Qed.

Lemma le_dec_enc4 v : v < two32 -> le_dec (le_enc 4 v) = v.
Proof. intros. rewrite le_dec_enc. apply N.mod_small. exact H. Qed.

Lemma hash32_unfold seed v :
  v < two32 -> hash32 seed v = fmix (N.lxor (body_step seed v) 4).
Proof.
  intros H. unfold hash32, murmur.
  rewrite <- (le_dec_enc4 v H) at 2.
  pose proof (le_enc_length 4 v) as Hl.
  destruct (le_enc 4 v) as [|b0 [|b1 [|b2 [|b3 [|b4 r]]]]]; try discriminate.
  reflexivity.
Qed.

Lemma hash32_inj seed x y :
  seed < two32 -> x < two32 -> y < two32 -> hash32 seed x = hash32 seed y -> x = y.
Proof.
  intros Hs Hx Hy H. rewrite !hash32_unfold in H by assumption.
  assert (4 < two32) by reflexivity.
  apply fmix_inj in H; try (apply xor32_lt; auto using body_step_lt).
  apply lxor_cancel_r in H. apply body_step_inj in H; auto.
Qed.
