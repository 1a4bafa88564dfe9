(** Theorems about the integer hash set: C12. *)
From Verif Require Import Base HashModel HashProof.

(** What a client sees: the entries of the table that are not the marker -1
    (this is how coarse_conn.c and the counting function read it). *)
Definition visible (t : hash_set) : list Z := filter (λ x, x ≠ (-1)%Z) (hs_s t).

Lemma members_visible t : members (hs_s t) = visible t.
Proof. done. Qed.

Section props.
Variable h : Z → nat → nat.
Hypothesis h_lt : ∀ k m, (0 ≤ k)%Z → 0 < m → h k m < m.

Lemma allocate_winv m o t o' :
  Nat.log2 m < 64 → allocate m o = (Some t, o') →
  ∃ p, winv h t p ∧ visible t = [] ∧ hs_m t = 2 ^ p ∧ m ≤ 2 ^ p ∧ ∀ q, m ≤ 2 ^ q → p ≤ q.
Proof.
  intros Hm E. unfold allocate in E. destruct (next_alloc o) as [[] o1]; [|done].
  destruct (next_alloc o1) as [[] o2]; [|done]. simplify_eq.
  destruct (hash_set_size_spec m Hm) as (p & Hp & H1 & H2). exists p. rewrite Hp.
  split; [split; [done|apply empty_inv]|]. split; [apply members_empty|]. done.
Qed.

(** C12.  The table size is the least power of two that holds the requested
    number of elements (any [int] argument satisfies the bound). *)
Theorem C12_allocate m o t o' :
  Nat.log2 m < 64 → allocate m o = (Some t, o') →
  visible t = [] ∧ count_elms t = 0 ∧
  ∃ p, hs_m t = 2 ^ p ∧ m ≤ 2 ^ p ∧ ∀ q, m ≤ 2 ^ q → p ≤ q.
Proof.
  intros Hm E. destruct (allocate_winv m o t o' Hm E) as (p & Hw & Hv & H). split; [done|].
  split; [|by exists p]. rewrite (count_correct h _ p Hw). by rewrite members_visible, Hv.
Qed.

(** C12.  With memory available, inserting any keys in any order: every call
    returns its key, the members are exactly the inserted keys, each present
    once, and the count is the number of distinct keys. *)
Theorem C12_set_semantics m t o' ks :
  Nat.log2 m < 64 → allocate m [] = (Some t, o') → Forall (λ k, 0 ≤ k)%Z ks →
  ∃ t', insert_all h ks t [] = Some (ks, t', []) ∧
    (∀ x, x ∈ visible t' ↔ x ∈ ks) ∧ NoDup (visible t') ∧
    count_elms t' = length (remove_dups ks).
Proof.
  intros Hm E Hks. destruct (allocate_winv _ _ _ _ Hm E) as (p & Hw & Hv & _).
  destruct (insert_all_correct h h_lt ks t p Hw Hks) as (t' & p' & E' & Hw' & Hmem).
  assert (∀ x, x ∈ visible t' ↔ x ∈ ks) as Hx.
  { intros x. rewrite <- members_visible, Hmem, members_visible, Hv, elem_of_nil. tauto. }
  pose proof (members_NoDup h p' (hs_s t') (wi_inv _ _ _ Hw')) as Hnd.
  exists t'. split; [done|]. split; [done|]. split; [done|].
  rewrite (count_correct h _ p' Hw'). apply NoDup_same_length; [done|apply NoDup_remove_dups|].
  intros x. rewrite elem_of_remove_dups. apply Hx.
Qed.

(** C12.  While there are at most as many distinct keys as were asked for,
    nothing is allocated (the oracle is untouched) and no call fails. *)
Theorem C12_no_growth m o t o' ks o2 :
  Nat.log2 m < 64 → allocate m o = (Some t, o') → Forall (λ k, 0 ≤ k)%Z ks →
  length (remove_dups ks) ≤ m →
  ∃ t', insert_all h ks t o2 = Some (ks, t', o2) ∧ hs_m t' = hs_m t ∧
    ∀ x, x ∈ visible t' ↔ x ∈ ks.
Proof.
  intros Hm E Hks Hl. destruct (allocate_winv _ _ _ _ Hm E) as (p & Hw & Hv & Hp & Hmp & _).
  destruct (insert_all_small h h_lt ks t p o2 Hw Hks) as (t' & E' & Hm' & Hw' & Hmem).
  - rewrite members_visible, Hv, app_nil_r. lia.
  - exists t'. split; [done|]. split; [done|]. intros x. rewrite <- members_visible, Hmem, members_visible, Hv, elem_of_nil. tauto.
Qed.

(** C12.  Under any allocation outcomes a call returns either its key, and then
    the key is a member, or -1, and then nothing changed; members never
    disappear. *)
Theorem C12_failure m o t o' ks o2 :
  Nat.log2 m < 64 → allocate m o = (Some t, o') → Forall (λ k, 0 ≤ k)%Z ks →
  ∃ rs t' o3, insert_all h ks t o2 = Some (rs, t', o3) ∧
    Forall2 (λ k r, r = k ∨ r = (-1)%Z) ks rs ∧
    (∀ x, x ∈ visible t' ↔ x ∈ rs ∧ x ≠ (-1)%Z) ∧ NoDup (visible t').
Proof.
  intros Hm E Hks. destruct (allocate_winv _ _ _ _ Hm E) as (p & Hw & Hv & Hp & Hmp & _).
  destruct (insert_all_any h h_lt ks t p o2 Hw Hks) as (rs & t' & o3 & p' & E' & Hw' & Hf & Hmem).
  exists rs, t', o3. split; [done|]. split; [done|]. split.
  - intros x. rewrite <- members_visible, Hmem, members_visible, Hv, elem_of_nil. tauto.
  - apply (members_NoDup h p'). apply Hw'.
Qed.
End props.
Print Assumptions C12_allocate.
Print Assumptions C12_set_semantics.
Print Assumptions C12_no_growth.
Print Assumptions C12_failure.

(** A hash function that satisfies the assumption and provokes collisions. *)
Local Definition h0 (k : Z) (m : nat) : nat := Z.to_nat (k `div` 3 `mod` Z.of_nat m).
Lemma h0_lt k m : (0 ≤ k)%Z → 0 < m → h0 k m < m.
Proof.
  intros Hk Hm. unfold h0.
  assert (0 ≤ k `div` 3 `mod` Z.of_nat m < Z.of_nat m)%Z by (apply Z.mod_pos_bound; lia). lia.
Qed.

(** Eight insertions, five distinct keys, into a table for three: one expansion. *)
Example C12_case :
  ∃ t t', allocate 3 [] = (Some t, []) ∧ hs_m t = 4 ∧
    insert_all h0 [5; 3; 4; 5; 0; 3; 9; 4]%Z t [] = Some ([5; 3; 4; 5; 0; 3; 9; 4]%Z, t', []) ∧
    hs_m t' = 8 ∧ count_elms t' = 5 ∧ length (remove_dups [5; 3; 4; 5; 0; 3; 9; 4]%Z) = 5.
Proof. eexists _, _. split; [vm_compute; reflexivity|]. split_and!; vm_compute; reflexivity. Qed.

(** The same insertions when the expansion is refused: key 9 is reported as -1. *)
Example C12_failure_case :
  ∃ t t', allocate 3 [] = (Some t, []) ∧
    insert_all h0 [5; 3; 4; 5; 0; 3; 9; 4]%Z t [false] = Some ([5; 3; 4; 5; 0; 3; -1; 4]%Z, t', []).
Proof. eexists _, _. split; [vm_compute; reflexivity|]. vm_compute; reflexivity. Qed.
