(** Loops that fill arrays and matrices. *)
From Coq Require Import Reals Lra.
From Verif Require Import Base LoopModel LoopProof AccProof TofSpec MimModel.
Unset Default Proof Using.

Lemma sum_loop_ok n (h : nat → option R) v : (∀ i, i < n → h i = Some (v i)) → sum_loop n h = Some (rsum v (seq 0 n)).
Proof.
  intros H. unfold sum_loop. destruct (for_loop_inv (λ i t, t = rsum v (seq 0 i)) n 0 (λ i t, x ← h i; Some (t + x)%R) 0%R) as (t & E & Ht); [done| |].
  - intros i t Hi ->. rewrite H by lia. cbn [mbind option_bind]. eexists. split; [done|]. rewrite Nat.add_1_r, seq_S, rsum_app. cbn [rsum]. rewrite Nat.add_0_l. lra.
  - rewrite E. cbn in Ht. by rewrite Ht.
Qed.

(** One loop, writing [new i] to place [ix i]. *)
Lemma fill_loop {T} n lo (f : nat → list T → option (list T)) (ix : nat → nat) (new : nat → T) X :
  (∀ i, lo ≤ i < lo + n → ix i < length X) → (∀ i i', lo ≤ i < lo + n → lo ≤ i' < lo + n → ix i = ix i' → i = i') →
  (∀ i Y, lo ≤ i < lo + n → length Y = length X → (∀ i', lo ≤ i' < i → Y !! ix i' = Some (new i')) →
     (∀ k, (∀ i', lo ≤ i' < i → ix i' ≠ k) → Y !! k = X !! k) → f i Y = upd Y (ix i) (new i)) →
  ∃ Y, for_loop n lo f X = Some Y ∧ length Y = length X ∧ (∀ i, lo ≤ i < lo + n → Y !! ix i = Some (new i)) ∧
    ∀ k, (∀ i, lo ≤ i < lo + n → ix i ≠ k) → Y !! k = X !! k.
Proof.
  intros Hix Hinj Hf.
  apply (for_loop_inv (λ i Y, length Y = length X ∧ (∀ i', lo ≤ i' < i → Y !! ix i' = Some (new i')) ∧ ∀ k, (∀ i', lo ≤ i' < i → ix i' ≠ k) → Y !! k = X !! k)).
  - split; [done|]. split; [intros; lia|done].
  - intros i Y Hi (HL & Hd & Hu). rewrite (Hf i Y Hi HL Hd Hu). rewrite upd_Some by (rewrite HL; by apply Hix). eexists. split; [done|]. split; [by rewrite insert_length|]. split.
    + intros i' Hi'. destruct (decide (i' = i)) as [->|Hne].
      * apply list_lookup_insert. rewrite HL. by apply Hix.
      * rewrite list_lookup_insert_ne; [apply Hd; lia|]. intros E. apply Hne. symmetry. apply Hinj; [done|lia|done].
    + intros k Hk. rewrite list_lookup_insert_ne by (apply Hk; lia). apply Hu. intros i' Hi'. apply Hk. lia.
Qed.
(** Two loops; the inner one runs from [lo j], [cnt j] times. *)
Definition earlier (lo cnt : nat → nat) (j i j' i' : nat) : Prop := lo j' ≤ i' < lo j' + cnt j' ∧ (j' < j ∨ j' = j ∧ i' < i).
Lemma fill_loop2 {T} n (lo cnt : nat → nat) (f : nat → nat → list T → option (list T)) (ix : nat → nat → nat) (new : nat → nat → T) X :
  let range i j := j < n ∧ lo j ≤ i < lo j + cnt j in
  (∀ i j, range i j → ix i j < length X) → (∀ i j i' j', range i j → range i' j' → ix i j = ix i' j' → i = i' ∧ j = j') →
  (∀ i j Y, range i j → length Y = length X → (∀ i' j', earlier lo cnt j i j' i' → Y !! ix i' j' = Some (new i' j')) →
     (∀ k, (∀ i' j', earlier lo cnt j i j' i' → ix i' j' ≠ k) → Y !! k = X !! k) → f j i Y = upd Y (ix i j) (new i j)) →
  ∃ Y, for_loop n 0 (λ j, for_loop (cnt j) (lo j) (f j)) X = Some Y ∧ length Y = length X ∧ (∀ i j, range i j → Y !! ix i j = Some (new i j)) ∧
    ∀ k, (∀ i j, range i j → ix i j ≠ k) → Y !! k = X !! k.
Proof.
  intros range Hix Hinj Hf.
  destruct (for_loop_inv (λ j Y, length Y = length X ∧ (∀ i' j', j' < j → lo j' ≤ i' < lo j' + cnt j' → Y !! ix i' j' = Some (new i' j')) ∧
      ∀ k, (∀ i' j', j' < j → lo j' ≤ i' < lo j' + cnt j' → ix i' j' ≠ k) → Y !! k = X !! k) n 0 (λ j, for_loop (cnt j) (lo j) (f j)) X) as (Y & E & HL & Hd & Hu).
  - split; [done|]. split; [intros; lia|done].
  - intros j Y Hj (HL & Hd & Hu). destruct (fill_loop (cnt j) (lo j) (f j) (λ i, ix i j) (λ i, new i j) Y) as (Z & E & HL' & Hd' & Hu').
    + intros i Hi. rewrite HL. apply Hix. split; [lia|done].
    + intros i i' Hi Hi' E. apply (Hinj i j i' j); [split; [lia|done]|split; [lia|done]|exact E].
    + intros i Z Hi HLZ HdZ HuZ. apply Hf; [split; [lia|done]|congruence| |].
      * intros i' j' [Hr [Hlt|[-> Hlt]]]; [|apply HdZ; lia]. rewrite HuZ; [by apply Hd|]. intros i'' Hi'' E.
        destruct (Hinj i'' j i' j' ltac:(split; lia) ltac:(split; lia) E). lia.
      * intros k Hk. rewrite HuZ, Hu; [done| |].
        -- intros i' j' Hj' Hi'. apply Hk. split; [done|by left].
        -- intros i' Hi'. apply Hk. split; [lia|right; lia].
    + exists Z. split; [done|]. split; [congruence|]. split.
      * intros i' j' Hj' Hi'. destruct (decide (j' = j)) as [->|]; [by apply Hd'|]. rewrite Hu'; [apply Hd; [lia|done]|].
        intros i'' Hi'' E'. destruct (Hinj i'' j i' j' ltac:(split; lia) ltac:(split; lia) E'). lia.
      * intros k Hk. rewrite Hu', Hu; [done| |].
        -- intros i' j' Hj' Hi'. apply Hk; [lia|done].
        -- intros i' Hi'. apply Hk; [lia|done].
  - exists Y. split; [done|]. split; [done|]. split.
    + intros i j [Hj Hi]. apply Hd; [lia|done].
    + intros k Hk. apply Hu. intros i' j' Hj' Hi'. apply Hk. split; [lia|done].
Qed.

(** [F] is the [m] x [n] matrix at [off] with leading dimension [ld]. *)
Definition mat {T} (X : list T) (off ld m n : nat) (F : nat → nat → T) : Prop := ∀ i j, i < m → j < n → X !! (off + (i + j * ld)) = Some (F i j).
Lemma ix_inj off ld m i j i' j' : m ≤ ld → i < m → i' < m → off + (i + j * ld) = off + (i' + j' * ld) → i = i' ∧ j = j'.
Proof. intros Hm Hi Hi' E. apply (pair_inj ld); lia. Qed.
(** Writing within a matrix leaves the rest alone. *)
Definition same_outside {T} (X Y : list T) (off ld m n : nat) : Prop := length Y = length X ∧ ∀ k, (∀ i j, i < m → j < n → off + (i + j * ld) ≠ k) → Y !! k = X !! k.
Lemma same_outside_trans {T} (X Y Z : list T) off ld m n : same_outside X Y off ld m n → same_outside Y Z off ld m n → same_outside X Z off ld m n.
Proof. intros [L1 H1] [L2 H2]. split; [congruence|]. intros k Hk. by rewrite H2, H1. Qed.

(** Assigning to each entry of a matrix, from its old value. *)
Lemma mat_map n (lo cnt : nat → nat) (f : nat → nat → list R → option (list R)) X off ld m (old new : nat → nat → R) :
  m ≤ ld → (∀ i j, i < m → j < n → off + (i + j * ld) < length X) → mat X off ld m n old → (∀ j, j < n → lo j + cnt j ≤ m) →
  (∀ i j Y, i < m → j < n → lo j ≤ i < lo j + cnt j →
     (∀ i' j', i' < m → j' < n → ¬ earlier lo cnt j i j' i' → Y !! (off + (i' + j' * ld)) = Some (old i' j')) →
     (∀ i' j', i' < m → j' < n → earlier lo cnt j i j' i' → Y !! (off + (i' + j' * ld)) = Some (new i' j')) → f j i Y = upd Y (off + (i + j * ld)) (new i j)) →
  ∃ Y, for_loop n 0 (λ j, for_loop (cnt j) (lo j) (f j)) X = Some Y ∧ same_outside X Y off ld m n ∧
    ∀ i j, i < m → j < n → Y !! (off + (i + j * ld)) = Some (if decide (lo j ≤ i < lo j + cnt j) then new i j else old i j).
Proof.
  intros Hld Hlen Hold Hcnt Hf.
  destruct (fill_loop2 n lo cnt f (λ i j, off + (i + j * ld)) new X) as (Y & E & HL & Hd & Hu).
  - intros i j [Hj Hi]. specialize (Hcnt j Hj). apply Hlen; lia.
  - intros i j i' j' [Hj Hi] [Hj' Hi'] E. pose proof (Hcnt j Hj). pose proof (Hcnt j' Hj'). eapply (ix_inj off ld m); [done|lia|lia|exact E].
  - intros i j Y [Hj Hi] HL Hd Hu. pose proof (Hcnt j Hj). apply Hf; [lia|done|done| |].
    + intros i' j' Hi' Hj' Hne. rewrite Hu; [by apply Hold|]. intros i'' j'' [Hr'' He] E. assert (j'' < n) by lia. pose proof (Hcnt j'' ltac:(lia)).
      destruct (ix_inj off ld m i'' j'' i' j' Hld ltac:(lia) Hi' E) as [-> ->]. apply Hne. by split.
    + intros i' j' Hi' Hj' He. by apply Hd.
  - exists Y. split; [done|]. split.
    + split; [done|]. intros k Hk. apply Hu. intros i j [Hj Hi]. pose proof (Hcnt j Hj). apply Hk; lia.
    + intros i j Hi Hj. case_decide as Hr; [by apply Hd|]. rewrite Hu; [by apply Hold|]. intros i' j' [Hj' Hi'] E'. pose proof (Hcnt j' Hj').
      destruct (ix_inj off ld m i' j' i j Hld ltac:(lia) Hi E') as [-> ->]. done.
Qed.
