(** C51, C52, C53: reordered input, orientation, crossings. *)
From Coq Require Import Reals Lra Psatz.
From Verif Require Import Base LoopModel LoopProof TableModel UniqModel PillarModel PrepModel VertModel VertSpec GrdModel GrdSpec.
Unset Default Proof Using.

(** ** The order of the columns *)
Section perm.
Context {A : Type}.
Variables (nx ny nz : nat) (inp : list A).
Hypothesis Hlen : nx * ny * nz ≤ length inp.
(** The place that value [m] of the output comes from. *)
Definition idx (m : nat) : nat := (m / nz) mod nx + nx * ((m / nz) / nx + ny * (m mod nz)).
Lemma idx_eq i j k : i < nx → j < ny → k < nz → idx (nz * (i + nx * j) + k) = i + nx * (j + ny * k).
Proof using.
  clear Hlen. intros Hi Hj Hk. unfold idx.
  assert ((nz * (i + nx * j) + k) / nz = i + nx * j) as E1 by (rewrite Nat.mul_comm, Nat.div_add_l by lia; rewrite (Nat.div_small k) by lia; lia).
  assert ((nz * (i + nx * j) + k) mod nz = k) as E2 by (rewrite Nat.add_comm, Nat.mul_comm, Nat.mod_add by lia; by apply Nat.mod_small).
  assert ((i + nx * j) mod nx = i) as E3 by (rewrite Nat.mul_comm, Nat.mod_add by lia; by apply Nat.mod_small).
  assert ((i + nx * j) / nx = j) as E4 by (rewrite Nat.mul_comm, Nat.add_comm, Nat.div_add_l by lia; rewrite (Nat.div_small i) by lia; lia).
  by rewrite E1, E2, E3, E4.
Qed.
Definition pinv (m : nat) (s : list A * nat) : Prop := s.2 = m ∧ length s.1 = nx * ny * nz ∧ ∀ m', m' < m → s.1 !! m' = inp !! idx m'.
Lemma permute_ok out : length out = nx * ny * nz → ∃ out', permute nx ny nz inp out = Some out' ∧ by_columns nx ny nz inp out'.
Proof using Hlen.
  intros Hout. unfold permute.
  destruct (for_loop_inv (λ j s, pinv (nz * (nx * j)) s) ny 0 (λ j, for_loop nx 0 (λ i, for_loop nz 0 (λ k '(out, ptr),
    x ← inp !! (i + nx * (j + ny * k)); out ← upd out ptr x; Some (out, ptr + 1)))) (out, 0)) as ([out' ptr] & E & H1 & H2 & H3).
  - split; [cbn; lia|]. split; [done|]. intros; lia.
  - intros j s Hj Hs. destruct (for_loop_inv (λ i s, pinv (nz * (i + nx * j)) s) nx 0 (λ i, for_loop nz 0 (λ k '(out, ptr),
      x ← inp !! (i + nx * (j + ny * k)); out ← upd out ptr x; Some (out, ptr + 1))) s) as (s' & E & Hs').
    + exact Hs.
    + intros i t Hi Ht. destruct (for_loop_inv (λ k s, pinv (nz * (i + nx * j) + k) s) nz 0 (λ k '(out, ptr),
        x ← inp !! (i + nx * (j + ny * k)); out ← upd out ptr x; Some (out, ptr + 1)) t) as (t' & E & Ht').
      * by rewrite Nat.add_0_r.
      * intros k [o p] Hk (Hp & Hl & Ho). cbn [fst snd] in *. subst p.
        assert (i + nx * (j + ny * k) < nx * ny * nz) as Hlt. { assert (j + ny * k < ny * nz) by nia. rewrite <- Nat.mul_assoc. nia. }
        destruct (lookup_lt_is_Some_2 inp (i + nx * (j + ny * k))) as [x Ex]; [lia|]. rewrite Ex. cbn [mbind option_bind].
        assert (nz * (i + nx * j) + k < nx * ny * nz) as Hm. { assert (i + nx * j < nx * ny) by nia. rewrite (Nat.mul_comm _ nz). nia. }
        rewrite upd_Some by lia. cbn [mbind option_bind]. eexists. split; [done|]. split; [cbn; lia|]. split; [cbn; by rewrite insert_length|]. cbn [fst]. intros m' Hm'.
        destruct (decide (m' = nz * (i + nx * j) + k)) as [->|Hn]; [rewrite list_lookup_insert by lia; by rewrite idx_eq by lia|]. rewrite list_lookup_insert_ne by done. apply Ho. lia.
      * exists t'. split; [done|]. replace (nz * (i + 1 + nx * j)) with (nz * (i + nx * j) + (0 + nz)) by nia. done.
    + exists s'. split; [done|]. replace (nz * (nx * (j + 1))) with (nz * (0 + nx + nx * j)) by nia. done.
  - rewrite E. cbn [mbind option_bind]. cbn [fst snd] in *. exists out'. split; [done|]. split; [done|]. intros i j k Hi Hj Hk.
    rewrite H3; [by rewrite idx_eq|]. assert (i + nx * j < nx * ny) by nia. cbn. nia.
Qed.
End perm.

(** C51: the reordered values are those of the input, column by column. *)
Theorem C51_actnum nx ny nz inp out : length out = nx * ny * nz → (∀ a, inp = Some a → nx * ny * nz ≤ length a) →
  ∃ out', copy_and_permute_actnum nx ny nz inp out = Some out' ∧
    by_columns nx ny nz (default (replicate (nx * ny * nz) 1%Z) inp) out'.
Proof.
  intros Hout Hl. destruct inp as [a|]; cbn [copy_and_permute_actnum default].
  - apply permute_ok; [by apply Hl|done].
  - destruct (for_loop_inv (λ m o, length o = nx * ny * nz ∧ ∀ m', m' < m → o !! m' = Some 1%Z) (nx * ny * nz) 0 (λ i out, upd out i 1%Z) out) as (o & E & L & H).
    + split; [done|]. intros; lia.
    + intros m o Hm [L H]. rewrite upd_Some by lia. eexists. split; [done|]. split; [by rewrite insert_length|]. intros m' Hm'. destruct (decide (m' = m)) as [->|Hn]; [apply list_lookup_insert; lia|].
      rewrite list_lookup_insert_ne by done. apply H. lia.
    + exists o. split; [done|]. split; [done|]. intros i j k Hi Hj Hk. rewrite H.
      * symmetry. apply lookup_replicate_2. assert (j + ny * k < ny * nz) by nia. rewrite <- Nat.mul_assoc. nia.
      * assert (i + nx * j < nx * ny) by nia. cbn. rewrite (Nat.mul_comm _ nz). nia.
Qed.
Print Assumptions C51_actnum.
Theorem C51_zcorn nx ny nz inp sign out : length out = nx * ny * nz * 8 → length inp = 8 * (nx * ny * nz) →
  ∃ out', copy_and_permute_zcorn nx ny nz inp sign out = Some out' ∧ length out' = 8 * (nx * ny * nz) ∧
    ∀ i j k, i < 2 * nx → j < 2 * ny → k < 2 * nz →
      out' !! (2 * nz * (i + 2 * nx * j) + k) = (Rmult (IZR sign)) <$> inp !! (i + 2 * nx * (j + 2 * ny * k)).
Proof.
  intros Hout Hinp. unfold copy_and_permute_zcorn.
  destruct (permute_ok (2 * nx) (2 * ny) (2 * nz) (map (Rmult (IZR sign)) inp)) with (out := out) as (out' & E & L & H); [rewrite map_length; lia|lia|].
  exists out'. split; [done|]. split; [lia|]. intros i j k Hi Hj Hk. rewrite H by done. apply list_lookup_fmap.
Qed.
Print Assumptions C51_zcorn.
(** Nothing is lost and nothing is counted twice. *)
Theorem C51_permutation {A} nx ny nz (inp out : list A) : by_columns nx ny nz inp out → length inp = nx * ny * nz → out ≡ₚ inp.
Proof.
  intros [L H] Li. destruct (decide (nx * ny * nz = 0)) as [Hz|Hz].
  { rewrite Hz in *. apply nil_length_inv in L as ->. by apply nil_length_inv in Li as ->. }
  assert (nx ≠ 0 ∧ ny ≠ 0 ∧ nz ≠ 0) as (Hx & Hy & Hzz) by (repeat split; intros ->; apply Hz; lia).
  set (N := nx * ny * nz) in *. set (ix := idx nx ny nz).
  assert (∀ m, m < N → ∃ i j k, i < nx ∧ j < ny ∧ k < nz ∧ m = nz * (i + nx * j) + k) as Hdec.
  { intros m Hm. exists ((m / nz) mod nx), ((m / nz) / nx), (m mod nz). pose proof (Nat.div_mod m nz Hzz). pose proof (Nat.div_mod (m / nz) nx Hx).
    pose proof (Nat.mod_upper_bound m nz Hzz). pose proof (Nat.mod_upper_bound (m / nz) nx Hx). split; [done|]. split; [|split; [done|nia]].
    apply Nat.div_lt_upper_bound; [done|]. apply Nat.div_lt_upper_bound; [done|]. unfold N in Hm. nia. }
  assert (ix <$> seq 0 N ≡ₚ seq 0 N) as Hp.
  { assert (NoDup (ix <$> seq 0 N)) as Hnd.
    { apply NoDup_fmap_2_strong; [|apply NoDup_seq]. intros m m' Hm Hm' E. apply elem_of_seq in Hm, Hm'.
      destruct (Hdec m) as (i & j & k & ? & ? & ? & ->); [lia|]. destruct (Hdec m') as (i' & j' & k' & ? & ? & ? & ->); [lia|].
      unfold ix in E. rewrite !idx_eq in E by done.
      assert (i = i') as ->. { apply (f_equal (λ x, x mod nx)) in E. rewrite !(Nat.mul_comm nx), !Nat.mod_add, !Nat.mod_small in E by lia. done. }
      assert (j + ny * k = j' + ny * k') as E' by nia.
      assert (j = j') as ->. { apply (f_equal (λ x, x mod ny)) in E'. rewrite !(Nat.mul_comm ny), !Nat.mod_add, !Nat.mod_small in E' by lia. done. }
      assert (k = k') as -> by nia. done. }
    apply submseteq_Permutation_length_eq; [by rewrite fmap_length|]. apply NoDup_submseteq; [done|]. intros x Hx'. apply elem_of_list_fmap in Hx' as (m & -> & Hm). apply elem_of_seq in Hm.
    destruct (Hdec m) as (i & j & k & ? & ? & ? & ->); [lia|]. unfold ix. rewrite idx_eq by done. apply elem_of_seq. assert (j + ny * k < ny * nz) by nia. unfold N. rewrite <- Nat.mul_assoc. nia. }
  destruct inp as [|d inp']; [cbn in Li; lia|]. set (inp := d :: inp') in *.
  assert (∀ l : list A, length l = N → l = (λ m, nth m l d) <$> seq 0 N) as Heta.
  { intros l Hl. apply list_eq. intros m. rewrite list_lookup_fmap. destruct (decide (m < N)) as [Hm|Hm].
    - rewrite lookup_seq_lt by done. cbn. rewrite nth_lookup. destruct (lookup_lt_is_Some_2 l m) as [x ->]; [lia|]. done.
    - rewrite lookup_ge_None_2 by lia. by rewrite lookup_seq_ge by lia. }
  rewrite (Heta inp Li) at 1. rewrite <- Hp. rewrite <- list_fmap_compose. rewrite (Heta out L).
  apply Permutation_refl'. apply list_fmap_ext. intros m x Hm. apply lookup_seq in Hm as [Hm Hlt]. cbn in Hm. subst x. unfold compose. change (nth m out d = nth (ix m) inp d).
  destruct (Hdec m) as (i & j & k & ? & ? & ? & ->); [lia|]. unfold ix. rewrite idx_eq by done. by rewrite !nth_lookup, H.
Qed.
Print Assumptions C51_permutation.
(** Two cells side by side over two layers. *)
Example C51_case : copy_and_permute_actnum 2 1 2 (Some [1; 2; 3; 4]%Z) [9; 9; 9; 9]%Z = Some [1; 3; 2; 4]%Z.
Proof. reflexivity. Qed.

(** ** The sign of the depths *)
Section sign.
Variables (nx ny nz : nat) (actnum : option (list Z)) (zcorn : list R).
Hypothesis Hact : ∀ a, actnum = Some a → length a = nx * ny * nz.
Hypothesis Hz : length zcorn = 8 * (nx * ny * nz).
(** Corner [k] of column [(i, j)] is out of order with the one below. *)
Definition bad (s : Z) (i j k : nat) : Prop :=
  in_use actnum (i / 2 + nx * (j / 2 + ny * (k / 2))) ∧ in_use actnum (i / 2 + nx * (j / 2 + ny * ((k + 1) / 2))) ∧
  ∃ z z', zcorn !! (i + 2 * nx * (j + 2 * ny * k)) = Some z ∧ zcorn !! (i + 2 * nx * (j + 2 * ny * (k + 1))) = Some z' ∧ (IZR s * z' < IZR s * z)%R.
Lemma corner_lt i j k : i < 2 * nx → j < 2 * ny → k < 2 * nz → i + 2 * nx * (j + 2 * ny * k) < 8 * (nx * ny * nz).
Proof using. clear. intros. assert (j + 2 * ny * k < 4 * (ny * nz)) by nia. nia. Qed.
Lemma cell_lt i j k : i < 2 * nx → j < 2 * ny → k < 2 * nz → i / 2 + nx * (j / 2 + ny * (k / 2)) < nx * ny * nz.
Proof using.
  clear. intros Hi Hj Hk. assert (i / 2 < nx) by (apply Nat.div_lt_upper_bound; lia). assert (j / 2 < ny) by (apply Nat.div_lt_upper_bound; lia). assert (k / 2 < nz) by (apply Nat.div_lt_upper_bound; lia).
  assert (j / 2 + ny * (k / 2) < ny * nz) by nia. rewrite <- Nat.mul_assoc. nia.
Qed.
Lemma sign_step_ok s i j k : i < 2 * nx → j < 2 * ny → k + 1 < 2 * nz → ∃ e, sign_step nx ny nz actnum zcorn s i j k = Some e ∧ (e = true ↔ bad s i j k).
Proof using Hact Hz.
  intros Hi Hj Hk. unfold sign_step, bad. pose proof (corner_lt i j k Hi Hj ltac:(lia)). pose proof (corner_lt i j (k + 1) Hi Hj Hk).
  pose proof (cell_lt i j k Hi Hj ltac:(lia)) as H1. pose proof (cell_lt i j (k + 1) Hi Hj Hk) as H2.
  destruct (lookup_lt_is_Some_2 zcorn (i + 2 * nx * (j + 2 * ny * k))) as [z Ez]; [lia|]. destruct (lookup_lt_is_Some_2 zcorn (i + 2 * nx * (j + 2 * ny * (k + 1)))) as [z' Ez']; [lia|].
  rewrite Ez, Ez'. cbn [mbind option_bind]. rewrite decide_True by done.
  set (c1 := i / 2 + nx * (j / 2 + ny * (k / 2))) in *. set (c2 := i / 2 + nx * (j / 2 + ny * ((k + 1) / 2))) in *. clearbody c1 c2.
  assert (∃ b, match actnum with None => Some true | Some a => a1 ← a !! c1; if decide (a1 = 0)%Z then Some false else a2 ← a !! c2; Some (bool_decide (a2 ≠ 0)%Z) end = Some b ∧ (b = true ↔ in_use actnum c1 ∧ in_use actnum c2)) as (b & -> & Hb).
  { destruct actnum as [a|]; [|exists true; split; [done|]; unfold in_use; naive_solver]. specialize (Hact a eq_refl).
    destruct (lookup_lt_is_Some_2 a c1) as [x Ex]; [lia|]. destruct (lookup_lt_is_Some_2 a c2) as [y Ey]; [lia|]. rewrite Ex, Ey. cbn [mbind option_bind].
    destruct (decide (x = 0)%Z) as [->|Hx].
    - exists false. split; [done|]. split; [done|]. intros [H3 _]. destruct (H3 a eq_refl) as (v & Hv & Hn). congruence.
    - exists (bool_decide (y ≠ 0)%Z). split; [done|]. rewrite bool_decide_eq_true. split.
      + intros Hy. split; intros a' [= <-]; eauto.
      + intros [_ H3]. destruct (H3 a eq_refl) as (v & Hv & Hn). congruence. }
  cbn [mbind option_bind]. eexists. split; [done|]. destruct b.
  - destruct (proj1 Hb eq_refl) as [U1 U2]. destruct (Rlt_dec _ _) as [Hlt|Hlt].
    + split; [|done]. intros _. split; [done|]. split; [done|]. by exists z, z'.
    + split; [done|]. intros (_ & _ & w & w' & E & E' & Hw). simplify_eq. done.
  - split; [done|]. intros (U1 & U2 & _). by apply Hb.
Qed.
Lemma flag_loop {A : Type} n (f : nat → bool → option bool) (Q : nat → Prop) e0 :
  (∀ i e, i < n → ∃ e', f i e = Some e' ∧ (e' = true ↔ e = true ∨ Q i)) →
  ∃ e, for_loop n 0 f e0 = Some e ∧ (e = true ↔ e0 = true ∨ ∃ i, i < n ∧ Q i).
Proof using.
  clear. intros H. destruct (for_loop_inv (λ m e, e = true ↔ e0 = true ∨ ∃ i, i < m ∧ Q i) n 0 f e0) as (e & E & He).
  - split; [by left|]. intros [?|(? & ? & _)]; [done|lia].
  - intros m e Hm He. destruct (H m e) as (e' & E & He'); [lia|]. exists e'. split; [done|]. rewrite He', He. split.
    + intros [[?|(i & Hi & Hq)]|Hq]; [by left| |]; right; [exists i|exists m]; (split; [lia|done]).
    + intros [?|(i & Hi & Hq)]; [by left; left|]. destruct (decide (i = m)) as [->|]; [by right|]. left. right. exists i. split; [lia|done].
  - by exists e.
Qed.
Lemma sign_error_ok s : ∃ e, sign_error nx ny nz actnum zcorn s = Some e ∧ (e = true ↔ ∃ j, j < 2 * ny ∧ ∃ i, i < 2 * nx ∧ ∃ k, k < 2 * nz - 1 ∧ bad s i j k).
Proof using Hact Hz.
  unfold sign_error. destruct (flag_loop (A := unit) (2 * ny) (λ j, for_loop (2 * nx) 0 (λ i, for_loop (2 * nz - 1) 0 (λ k error,
    if (error : bool) then Some true else sign_step nx ny nz actnum zcorn s i j k))) (λ j, ∃ i, i < 2 * nx ∧ ∃ k, k < 2 * nz - 1 ∧ bad s i j k) false) as (e & E & He).
  - intros j e Hj. apply (flag_loop (A := unit) (2 * nx) _ (λ i, ∃ k, k < 2 * nz - 1 ∧ bad s i j k)). intros i e' Hi. apply (flag_loop (A := unit) (2 * nz - 1) _ (λ k, bad s i j k)).
    intros k e'' Hk. destruct (sign_step_ok s i j k) as (b & Eb & Hb); [lia..|]. destruct e''.
    + exists true. split; [done|]. split; [by left|done].
    + exists b. split; [done|]. rewrite Hb. split; [by right|]. by intros [?|?].
  - exists e. split; [done|]. rewrite He. split; [|by right]. by intros [?|?].
Qed.
Lemma descending_bad s : descending nx ny nz actnum zcorn (IZR s) ↔ ¬ ∃ j, j < 2 * ny ∧ ∃ i, i < 2 * nx ∧ ∃ k, k < 2 * nz - 1 ∧ bad s i j k.
Proof using.
  clear. split.
  - intros H (j & Hj & i & Hi & k & Hk & U1 & U2 & z & z' & E & E' & Hlt). pose proof (H i j k z z' Hi Hj ltac:(lia) U1 U2 E E'). lra.
  - intros H i j k z z' Hi Hj Hk U1 U2 E E'. destruct (Rle_dec (IZR s * z) (IZR s * z')) as [|Hn]; [done|]. exfalso. apply H. exists j. split; [done|]. exists i. split; [done|]. exists k. split; [lia|]. split; [done|]. split; [done|]. exists z, z'. split; [done|]. split; [done|]. lra.
Qed.
(** C52: the sign is 1 if the depths do not decrease downwards, -1 if that only
    holds with the sign reversed, and -3 with an error if neither does. *)
Theorem C52_sign : ∃ s e, get_zcorn_sign nx ny nz actnum zcorn = Some (s, e) ∧
  (s = 1%Z ∧ e = false ∧ descending nx ny nz actnum zcorn 1 ∨
   s = (-1)%Z ∧ e = false ∧ ¬ descending nx ny nz actnum zcorn 1 ∧ descending nx ny nz actnum zcorn (-1) ∨
   s = (-3)%Z ∧ e = true ∧ ¬ descending nx ny nz actnum zcorn 1 ∧ ¬ descending nx ny nz actnum zcorn (-1)).
Proof using Hact Hz.
  unfold get_zcorn_sign. destruct (sign_error_ok 1) as (e & -> & He). cbn [mbind option_bind]. pose proof (descending_bad 1) as D1. pose proof (descending_bad (-1)) as D2. destruct e.
  - destruct (sign_error_ok (-1)) as (e & -> & He'). cbn [mbind option_bind]. destruct e; eexists _, _; (split; [done|]).
    + right. right. split; [done|]. split; [done|]. split; intros H; [apply D1 in H|apply D2 in H]; apply H; [by apply He|by apply He'].
    + right. left. split; [done|]. split; [done|]. split; [intros H; apply D1 in H; apply H; by apply He|]. apply D2. intros H. by apply He' in H.
  - eexists _, _. split; [done|]. left. split; [done|]. split; [done|]. apply D1. intros H. by apply He in H.
Qed.
End sign.
Print Assumptions C52_sign.

(** The comment of the function promises -1 when both signs fail. One cell with
    one pillar in order and one reversed gets -3. *)
Theorem C52_both_refuted : get_zcorn_sign 1 1 1 None [0; 1; 0; 0; 1; 0; 0; 0]%R = Some ((-3)%Z, true).
Proof.
  destruct (C52_sign 1 1 1 None [0; 1; 0; 0; 1; 0; 0; 0]%R) as (s & e & E & H); [done|done|]. rewrite E.
  assert (∀ c, in_use None c) as U by (intros c a; done).
  destruct H as [(_ & _ & H)|[(_ & _ & _ & H)|(-> & -> & _)]]; [| |done]; exfalso.
  - pose proof (H 1 0 0 1%R 0%R ltac:(lia) ltac:(lia) ltac:(lia) (U _) (U _) eq_refl eq_refl). lra.
  - pose proof (H 0 0 0 0%R 1%R ltac:(lia) ltac:(lia) ltac:(lia) (U _) (U _) eq_refl eq_refl). lra.
Qed.
Print Assumptions C52_both_refuted.
(** Corners on both sides of an inactive cell are never compared: three cells on
    top of each other, the middle one inactive, the lowest above the others. *)
Theorem C52_gap_refuted : ∃ zcorn, length zcorn = 8 * 3 ∧ get_zcorn_sign 1 1 3 (Some [1; 0; 1]%Z) zcorn = Some (1%Z, false) ∧
  zcorn !! (0 + 2 * (0 + 2 * 1)) = Some 6%R ∧ zcorn !! (0 + 2 * (0 + 2 * 4)) = Some 1%R.
Proof.
  exists ([5; 5; 5; 5; 6; 6; 6; 6] ++ [3; 3; 3; 3; 3; 3; 3; 3] ++ [1; 1; 1; 1; 2; 2; 2; 2])%R. split; [done|]. split; [|done].
  set (zc := (_ ++ _)%list). destruct (C52_sign 1 1 3 (Some [1; 0; 1]%Z) zc) as (s & e & E & H); [by intros a [= <-]|done|]. rewrite E.
  assert (descending 1 1 3 (Some [1; 0; 1]%Z) zc 1) as D.
  { intros i j k z z' Hi Hj Hk U1 U2 E1 E2. destruct (U1 _ eq_refl) as (v & Hv & Hv0). destruct (U2 _ eq_refl) as (w & Hw & Hw0). clear U1 U2 E H.
    destruct i as [|[|i]]; [| |lia]; (destruct j as [|[|j]]; [| |lia]); (destruct k as [|[|[|[|[|k]]]]]; [| | | | |lia]); cbn in Hv, Hw; simplify_eq; cbn in E1, E2; simplify_eq; lra. }
  destruct H as [(-> & -> & _)|[(_ & _ & H & _)|(_ & _ & H & _)]]; [done| |]; by destruct H.
Qed.
Print Assumptions C52_gap_refuted.

(** ** Crossings *)
(** C53: if the lines from [l0] to [l1] and from [l2] to [l3] change order
    between the pillars, the point computed is on both in depth, and between the
    points of the pillars at that depth. *)
Theorem C53_crossing c l0 l1 l2 l3 p0 p1 p2 p3 : slice c (3 * l0) 3 = Some p0 → slice c (3 * l1) 3 = Some p1 → slice c (3 * l2) 3 = Some p2 → slice c (3 * l3) 3 = Some p3 →
  (∃ z0 z1 z2 z3, p0 !! 2 = Some z0 ∧ p1 !! 2 = Some z1 ∧ p2 !! 2 = Some z2 ∧ p3 !! 2 = Some z3 ∧ ((z0 - z2) * (z1 - z3) < 0)%R) →
  ∃ pt, approximate_intersection_pt l0 l1 l2 l3 c = Some pt ∧ length pt = 3 ∧ crosses p0 p1 p2 p3 pt.
Proof.
  intros S0 S1 S2 S3 (z0 & z1 & z2 & z3 & E0 & E1 & E2 & E3 & Hc).
  assert (G : ∀ l p k x, slice c (3 * l) 3 = Some p → k < 3 → p !! k = Some x → c !! (3 * l + k) = Some x).
  { intros l p k x Hs Hk Hx. rewrite (slice_lookup _ _ _ _ k Hs Hk). done. }
  assert (T : ∀ l p z, slice c (3 * l) 3 = Some p → p !! 2 = Some z → ∃ x y, p = [x; y; z] ∧ c !! (3 * l) = Some x ∧ c !! (3 * l + 1) = Some y ∧ c !! (3 * l + 2) = Some z).
  { intros l p z Hs Hz. pose proof (slice_length _ _ _ _ Hs) as Hl. destruct p as [|x [|y [|w [|? ?]]]]; try done. injection Hz as ->. exists x, y. split; [done|].
    pose proof (G l _ 0 x Hs ltac:(lia) eq_refl) as G0. rewrite Nat.add_0_r in G0. split; [done|]. split; [by apply (G l _ 1 y Hs ltac:(lia))|by apply (G l _ 2 z Hs ltac:(lia))]. }
  destruct (T _ _ _ S0 E0) as (x0 & y0 & -> & X0 & Y0 & Z0). destruct (T _ _ _ S1 E1) as (x1 & y1 & -> & X1 & Y1 & Z1).
  destruct (T _ _ _ S2 E2) as (x2 & y2 & -> & X2 & Y2 & Z2). destruct (T _ _ _ S3 E3) as (x3 & y3 & -> & X3 & Y3 & Z3). clear G T S0 S1 S2 S3.
  unfold approximate_intersection_pt. rewrite decide_True. 2: { split; intros ->; simplify_eq; lra. }
  rewrite Z0, Z1, Z2, Z3. cbn [mbind option_bind].
  set (d := ((z1 - z0) - (z3 - z2))%R). assert (z0 ≠ z2 ∧ z1 ≠ z3) as [N02 N13] by (split; intros ->; lra).
  assert (0 < z2 - z0 ∧ 0 < z1 - z3 ∨ z2 - z0 < 0 ∧ z1 - z3 < 0)%R as Huv. { destruct (Rlt_dec 0 (z2 - z0)); destruct (Rlt_dec 0 (z1 - z3)); try (left; split; lra); try (right; split; lra); exfalso; nra. }
  assert (d ≠ 0)%R as Hd by (unfold d; lra). destruct (Rlt_dec 0 (Rabs d)) as [_|Hn]; [|destruct Hn; by apply Rabs_pos_lt].
  set (a := ((z2 - z0) / d)%R). set (z := (z0 * (1 - a) + z1 * a)%R).
  assert (a * d = z2 - z0)%R as Had by (unfold a; field; done). assert (0 < a < 1)%R as Ha. { clear - Had Huv. clearbody a. unfold d in Had. destruct Huv as [[? ?]|[? ?]]; split; nra. }
  assert (z = z2 * (1 - a) + z3 * a)%R as Hz by (unfold z, d in *; lra).
  unfold rdiv. destruct (Req_EM_T (z2 - z0) 0) as [|_]; [lra|]. cbn [mbind option_bind]. rewrite X0, X2, Y0, Y2. cbn [mbind option_bind].
  destruct (Req_EM_T (z1 - z3) 0) as [|_]; [lra|]. cbn [mbind option_bind]. rewrite X1, X3, Y1, Y3. cbn [mbind option_bind].
  eexists. split; [done|]. split; [done|].
  set (b := ((z - z0) / (z2 - z0))%R). set (e := ((z1 - z) / (z1 - z3))%R).
  assert (b * (z2 - z0) = z - z0)%R as Hb by (unfold b; field; lra). assert (e * (z1 - z3) = z1 - z)%R as He by (unfold e; field; lra).
  assert ((z2 - z) / (z2 - z0) = 1 - b)%R as -> by (unfold b; field; lra). assert ((z - z3) / (z1 - z3) = 1 - e)%R as -> by (unfold e; field; lra).
  exists a, b, e. split; [done|]. unfold between. cbn.
  assert ((1 - b) * z0 + b * z2 = z)%R as Eb by lra. assert ((1 - e) * z1 + e * z3 = z)%R as Ee by lra. split.
  - f_equal; [ring|]. f_equal; [ring|]. f_equal. rewrite Eb, Ee. ring.
  - split; [f_equal; unfold z; ring|]. split; [f_equal; rewrite Hz; ring|]. split; f_equal; lra.
Qed.
Print Assumptions C53_crossing.
