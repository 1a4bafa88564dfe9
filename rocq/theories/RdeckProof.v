(** Lemmas about rock from a deck (C67). *)
From Coq Require Import Reals Lra Psatz String.
From Verif Require Import Base LoopModel LoopProof RdeckModel RdeckSpec.
Local Open Scope R_scope.
Unset Default Proof Using.

Lemma has_iff {A} (deck : string → option A) k : has deck k = true ↔ is_Some (deck k).
Proof. unfold has. destruct (deck k); split; intros H; try done. destruct H as [? [=]]. Qed.

(** The three tests of classifyPermeability. *)
Definition okb (xx xy xz yx yy yz zx zy zz : bool) : bool :=
  (xx || negb (xy || xz || yx || zx)) && (yy || negb (yx || yz || xy || zy)) && (zz || negb (zx || zy || xz || yz)).
Definition deck_ok (deck : string → option (list R)) : bool :=
  okb (has deck "PERMX") (has deck "PERMXY") (has deck "PERMXZ") (has deck "PERMYX") (has deck "PERMY") (has deck "PERMYZ") (has deck "PERMZX") (has deck "PERMZY") (has deck "PERMZ").
Lemma deck_ok_structured deck : deck_ok deck = true ↔ structured deck.
Proof.
  unfold deck_ok, okb. split.
  - intros H i j Hi Hj Hij E. apply has_iff in E. rewrite <- !has_iff.
    destruct i as [|[|[|]]]; try lia; destruct j as [|[|[|]]]; try lia; cbn [keyword] in *; rewrite E in H;
      destruct (has deck "PERMX"), (has deck "PERMY"), (has deck "PERMZ"); cbn in H; try (by split);
      rewrite ?andb_false_r, ?andb_false_l, ?orb_true_r in H; cbn in H; rewrite ?andb_false_r in H; done.
  - intros H.
    assert (∀ i j, (i < 3)%nat → (j < 3)%nat → i ≠ j → has deck (keyword i j) = true → has deck (keyword i i) = true ∧ has deck (keyword j j) = true) as H'.
    { intros i j ? ? ? E. rewrite !has_iff. apply H; try done. by apply has_iff. }
    pose proof (H' 0 1)%nat as A1. pose proof (H' 0 2)%nat as A2. pose proof (H' 1 0)%nat as A3. pose proof (H' 1 2)%nat as A4. pose proof (H' 2 0)%nat as A5. pose proof (H' 2 1)%nat as A6.
    cbn [keyword] in *.
    specialize (A1 ltac:(lia) ltac:(lia) ltac:(done)). specialize (A2 ltac:(lia) ltac:(lia) ltac:(done)). specialize (A3 ltac:(lia) ltac:(lia) ltac:(done)).
    specialize (A4 ltac:(lia) ltac:(lia) ltac:(done)). specialize (A5 ltac:(lia) ltac:(lia) ltac:(done)). specialize (A6 ltac:(lia) ltac:(lia) ltac:(done)).
    clear H H'.
    destruct (has deck "PERMX"), (has deck "PERMY"), (has deck "PERMZ"), (has deck "PERMXY"); try (by destruct (A1 eq_refl));
      destruct (has deck "PERMXZ"); try (by destruct (A2 eq_refl)); destruct (has deck "PERMYX"); try (by destruct (A3 eq_refl));
      destruct (has deck "PERMYZ"); try (by destruct (A4 eq_refl)); destruct (has deck "PERMZX"); try (by destruct (A5 eq_refl));
      destruct (has deck "PERMZY"); try (by destruct (A6 eq_refl)); done.
Qed.
Lemma classify_bad deck : deck_ok deck = false → classify deck = InvalidPerm.
Proof.
  unfold deck_ok, classify.
  generalize (has deck "PERMX"), (has deck "PERMXY"), (has deck "PERMXZ"), (has deck "PERMYX"), (has deck "PERMY"), (has deck "PERMYZ"), (has deck "PERMZX"), (has deck "PERMZY"), (has deck "PERMZ").
  intros [] [] [] [] [] [] [] [] []; vm_compute; done.
Qed.
Lemma classify_good deck : deck_ok deck = true → classify deck ≠ InvalidPerm.
Proof.
  unfold deck_ok, classify.
  generalize (has deck "PERMX"), (has deck "PERMXY"), (has deck "PERMXZ"), (has deck "PERMYX"), (has deck "PERMY"), (has deck "PERMYZ"), (has deck "PERMZX"), (has deck "PERMZY"), (has deck "PERMZ").
  intros [] [] [] [] [] [] [] [] []; vm_compute; done.
Qed.

(** The steps of fillTensor. *)
Definition steps (deck : string → option (list R)) (zero : list R) : option (list (list R) * list nat) :=
  st ← diag deck "PERMX" 0 4 8 ([zero], replicate 9 0%nat);
  st ← cross deck "PERMXY" 1 3 st; st ← cross deck "PERMXZ" 2 6 st; st ← cross deck "PERMYX" 3 1 st;
  st ← diag deck "PERMY" 4 8 0 st; st ← cross deck "PERMYZ" 5 7 st; st ← cross deck "PERMZX" 6 2 st;
  st ← cross deck "PERMZY" 7 5 st; diag deck "PERMZ" 8 0 4 st.
Lemma fill_steps deck zero : deck_ok deck = true → fill_tensor deck zero = steps deck zero.
Proof. intros H%classify_good. unfold fill_tensor. by destruct (classify deck). Qed.
Lemma fill_bad deck zero : deck_ok deck = false → fill_tensor deck zero = None.
Proof. intros H%classify_bad. unfold fill_tensor. by rewrite H. Qed.

Definition entry (st : list (list R) * list nat) (k : nat) (l : list R) : Prop := ∃ m, st.2 !! k = Some m ∧ st.1 !! m = Some l.
Definition entryb (st : list (list R) * list nat) (k : nat) : option (list R) := m ← st.2 !! k; st.1 !! m.
Lemma entry_of st k l : entryb st k = Some l → entry st k l.
Proof. unfold entryb, entry. destruct (st.2 !! k) as [m|] eqn:E; [|done]. cbn. intros. eauto. Qed.
Lemma steps_ok deck zero : ∃ st, steps deck zero = Some st ∧ length st.2 = 9%nat ∧
  map (entryb st) (seq 0 9) = map (λ k, Some (default zero (given deck (k / 3) (k mod 3)))) (seq 0 9) ∧
  (length st.1 = 1%nat ↔ map (λ k, has deck (keyword (k / 3) (k mod 3))) (seq 0 9) = replicate 9 false).
Proof.
  unfold steps, diag, cross, given, keyword, has. cbn [seq map].
  change (0 / 3)%nat with 0%nat. change (1 / 3)%nat with 0%nat. change (2 / 3)%nat with 0%nat. change (3 / 3)%nat with 1%nat. change (4 / 3)%nat with 1%nat. change (5 / 3)%nat with 1%nat.
  change (6 / 3)%nat with 2%nat. change (7 / 3)%nat with 2%nat. change (8 / 3)%nat with 2%nat.
  change (0 mod 3)%nat with 0%nat. change (1 mod 3)%nat with 1%nat. change (2 mod 3)%nat with 2%nat. change (3 mod 3)%nat with 0%nat. change (4 mod 3)%nat with 1%nat. change (5 mod 3)%nat with 2%nat.
  change (6 mod 3)%nat with 0%nat. change (7 mod 3)%nat with 1%nat. change (8 mod 3)%nat with 2%nat.
  cbn [Nat.max Nat.min].
  generalize (deck "PERMX"%string), (deck "PERMXY"%string), (deck "PERMXZ"%string), (deck "PERMYX"%string), (deck "PERMY"%string), (deck "PERMYZ"%string), (deck "PERMZX"%string), (deck "PERMZY"%string), (deck "PERMZ"%string).
  intros [] [] [] [] [] [] [] [] []; (eexists; split; [vm_compute; reflexivity|split; [reflexivity|split; [vm_compute; reflexivity|vm_compute; split; intros [=]; reflexivity]]]).
Qed.
