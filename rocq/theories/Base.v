(** Shared vocabulary: arrays with bounds, undefined behaviour, allocation oracle.

    Nothing in this file models a particular function of /repo; it fixes how C
    memory is represented everywhere else:
    - an array is a [list]; its length is the number of allocated elements;
    - [None] is undefined behaviour (out-of-bounds access, failed assert, ...);
    - [malloc]/[realloc] outcomes come from an oracle, a list of booleans that
      is consumed from the left; the empty list means "all further
      allocations succeed". *)
From Coq Require Export Lia ZArith.
From stdpp Require Export numbers list_numbers option sorting.
From stdpp Require Export list.

(** Write one array element; out of bounds is undefined behaviour. *)
Definition upd {A} (l : list A) (i : nat) (x : A) : option (list A) :=
  if decide (i < length l) then Some (<[i:=x]> l) else None.

(** [memcpy(l + off, src, length src)]: element-wise writes. *)
Fixpoint memcpy {A} (l : list A) (off : nat) (src : list A) : option (list A) :=
  match src with
  | [] => Some l
  | x :: xs => l' ← upd l off x; memcpy l' (S off) xs
  end.

(** Read [n] consecutive elements starting at [off]; out of bounds is
    undefined behaviour. *)
Fixpoint slice {A} (l : list A) (off n : nat) : option (list A) :=
  match n with
  | 0 => Some []
  | S n' => x ← l !! off; xs ← slice l (S off) n'; Some (x :: xs)
  end.

(** [realloc] to [n] elements: the common prefix survives, new elements have
    unknown content [junk]. *)
Definition realloc_arr {A} (junk : A) (n : nat) (l : list A) : list A :=
  take n l ++ replicate (n - length l) junk.

(** The outcome of the next allocation and the remaining oracle. *)
Definition next_alloc (o : list bool) : bool * list bool :=
  match o with [] => (true, []) | b :: o' => (b, o') end.

(** ** Lemmas about the array primitives *)

Lemma upd_Some {A} (l : list A) i x :
  i < length l → upd l i x = Some (<[i:=x]> l).
Proof. intros. unfold upd. by rewrite decide_True. Qed.

Lemma upd_inv {A} (l l' : list A) i x :
  upd l i x = Some l' → i < length l ∧ l' = <[i:=x]> l.
Proof. unfold upd. case_decide; naive_solver. Qed.

Lemma upd_None {A} (l : list A) i x : length l ≤ i → upd l i x = None.
Proof. intros. unfold upd. rewrite decide_False; [done|lia]. Qed.

Lemma memcpy_Some {A} (l : list A) off src :
  off + length src ≤ length l →
  memcpy l off src = Some (take off l ++ src ++ drop (off + length src) l).
Proof.
  revert l off. induction src as [|x xs IH]; intros l off H; simpl in *.
  - rewrite Nat.add_0_r, take_drop. done.
  - rewrite upd_Some by lia. simpl. rewrite IH by (rewrite insert_length; lia).
    f_equal. apply list_eq. intros i.
    destruct (decide (i < off)) as [Hlt|Hge].
    + rewrite !lookup_app_l by (rewrite ?take_length, ?insert_length; lia).
      rewrite !lookup_take by lia. rewrite list_lookup_insert_ne by lia. done.
    + destruct (decide (i = off)) as [->|Hne].
      * rewrite lookup_app_l by (rewrite take_length, insert_length; lia).
        rewrite lookup_take by lia. rewrite list_lookup_insert by lia.
        rewrite lookup_app_r by (rewrite take_length; lia).
        rewrite take_length, Nat.min_l by lia. by rewrite Nat.sub_diag.
      * rewrite lookup_app_r by (rewrite take_length, insert_length; lia).
        rewrite take_length, insert_length, Nat.min_l by lia.
        rewrite (lookup_app_r (take off l)) by (rewrite take_length; lia).
        rewrite take_length, Nat.min_l by lia.
        replace (i - off) with (S (i - S off)) by lia. simpl.
        destruct (decide (i - S off < length xs)).
        -- by rewrite !lookup_app_l by lia.
        -- rewrite !lookup_app_r by lia. rewrite !lookup_drop.
           rewrite list_lookup_insert_ne by lia. f_equal. lia.
Qed.

Lemma memcpy_length {A} (l l' : list A) off src :
  memcpy l off src = Some l' → length l' = length l.
Proof.
  revert l off. induction src as [|x xs IH]; intros l off H; simpl in *.
  - by simplify_eq.
  - destruct (upd l off x) as [l1|] eqn:E; [|done]. simpl in H.
    apply upd_inv in E as [? ->]. apply IH in H. by rewrite insert_length in H.
Qed.

Lemma memcpy_lookup_lt {A} (l l' : list A) off src i :
  memcpy l off src = Some l' → i < off → l' !! i = l !! i.
Proof.
  revert l off. induction src as [|x xs IH]; intros l off H Hi; simpl in *.
  - by simplify_eq.
  - destruct (upd l off x) as [l1|] eqn:E; [|done]. simpl in H.
    apply upd_inv in E as [? ->]. rewrite (IH _ _ H) by lia.
    by rewrite list_lookup_insert_ne by lia.
Qed.

Lemma memcpy_lookup_ge {A} (l l' : list A) off src i :
  memcpy l off src = Some l' → off + length src ≤ i → l' !! i = l !! i.
Proof.
  revert l off. induction src as [|x xs IH]; intros l off H Hi; simpl in *.
  - by simplify_eq.
  - destruct (upd l off x) as [l1|] eqn:E; [|done]. simpl in H.
    apply upd_inv in E as [? ->]. rewrite (IH _ _ H) by lia.
    by rewrite list_lookup_insert_ne by lia.
Qed.

Lemma memcpy_lookup_mid {A} (l l' : list A) off src i :
  memcpy l off src = Some l' → i < length src → l' !! (off + i) = src !! i.
Proof.
  revert l off i. induction src as [|x xs IH]; intros l off i H Hi; simpl in *.
  - lia.
  - destruct (upd l off x) as [l1|] eqn:E; [|done]. simpl in H.
    apply upd_inv in E as [? ->]. destruct i as [|i]; simpl.
    + rewrite (memcpy_lookup_lt _ _ _ _ _ H) by lia.
      rewrite Nat.add_0_r. by apply list_lookup_insert.
    + rewrite <- (IH _ _ i H) by lia. f_equal. lia.
Qed.

Lemma slice_Some {A} (l : list A) off n :
  off + n ≤ length l → slice l off n = Some (take n (drop off l)).
Proof.
  revert off. induction n as [|n IH]; intros off H; simpl.
  - done.
  - destruct (lookup_lt_is_Some_2 l off) as [x Hx]; [lia|].
    rewrite Hx. simpl. rewrite IH by lia. simpl.
    f_equal. by rewrite (drop_S _ _ _ Hx).
Qed.

Lemma slice_length {A} (l r : list A) off n : slice l off n = Some r → length r = n.
Proof.
  revert off r. induction n as [|n IH]; intros off r H; simpl in *.
  - by simplify_eq.
  - destruct (l !! off) as [x|]; [|done]; simpl in H.
    destruct (slice l (S off) n) as [xs|] eqn:E; [|done]; simpl in H.
    simplify_eq. simpl. f_equal. eauto.
Qed.

(** A slice is determined by the elements it covers. *)
Lemma slice_ext {A} (l l' : list A) off n :
  (∀ i, off ≤ i → i < off + n → l' !! i = l !! i) → slice l' off n = slice l off n.
Proof.
  revert off. induction n as [|n IH]; intros off H; simpl; [done|].
  rewrite (H off) by lia. destruct (l !! off); [|done]; simpl.
  rewrite IH; [done|]. intros i ? ?. apply H; lia.
Qed.

Lemma slice_pointwise {A} (l r : list A) off n :
  length r = n → (∀ i, i < n → l !! (off + i) = r !! i) → slice l off n = Some r.
Proof.
  revert off r. induction n as [|n IH]; intros off r Hl H; simpl.
  - by destruct r.
  - destruct r as [|x r]; [done|]. simpl in Hl.
    specialize (H 0) as H0. rewrite Nat.add_0_r in H0. rewrite H0 by lia. simpl.
    rewrite (IH (S off) r); [done|lia|]. intros i Hi.
    specialize (H (S i)). simpl in H. rewrite <- H by lia. f_equal. lia.
Qed.

Lemma slice_lookup {A} (l r : list A) off n i :
  slice l off n = Some r → i < n → l !! (off + i) = r !! i.
Proof.
  revert off r i. induction n as [|n IH]; intros off r i H Hi; simpl in *; [lia|].
  destruct (l !! off) as [x|] eqn:Hx; [|done]; simpl in H.
  destruct (slice l (S off) n) as [xs|] eqn:E; [|done]; simpl in H. simplify_eq.
  destruct i as [|i]; simpl.
  - by rewrite Nat.add_0_r.
  - rewrite <- (IH _ _ i E) by lia. f_equal. lia.
Qed.

Lemma slice_memcpy {A} (l l' : list A) off src :
  memcpy l off src = Some l' → slice l' off (length src) = Some src.
Proof.
  intros H. apply slice_pointwise; [done|]. intros i Hi.
  by apply (memcpy_lookup_mid _ _ _ _ _ H).
Qed.

Lemma realloc_arr_length {A} (j : A) n l : length (realloc_arr j n l) = n.
Proof. unfold realloc_arr. rewrite app_length, take_length, replicate_length. lia. Qed.

Lemma realloc_arr_lookup {A} (j : A) n l i :
  i < n → i < length l → realloc_arr j n l !! i = l !! i.
Proof.
  intros. unfold realloc_arr.
  rewrite lookup_app_l by (rewrite take_length; lia). by apply lookup_take.
Qed.
