(** Saturation functions of a reservoir (C64): many points. *)
From Coq Require Import Reals Lra Psatz.
From Verif Require Import Base LoopModel LoopProof TableModel TofSpec MiscSpec PhaseModel KrModel KrSpec KrProof KrProps EpsModel EpsSpec.
Local Open Scope R_scope.
Unset Default Proof Using.

(** Block [i] of an array of blocks of length [n]. *)
Definition block (n i : nat) (l : list R) : list R := take n (drop (n * i) l).

Lemma block_length n i k l : (i < k)%nat → (n * k ≤ length l)%nat → length (block n i l) = n.
Proof. intros. unfold block. rewrite take_length, drop_length. nia. Qed.
Lemma drop_block n i k l : (i < k)%nat → (n * k ≤ length l)%nat → drop (n * i) l = block n i l ++ drop n (drop (n * i) l).
Proof. intros. unfold block. by rewrite take_drop. Qed.
(** The loops. *)
Lemma loop1 n np (f : nat → list R → option (list R)) (v : nat → list R) l : (np * n ≤ length l)%nat →
  (∀ i, (i < n)%nat → length (v i) = np ∧ ∀ k, (np ≤ length k)%nat → f i k = Some (v i ++ drop np k)) →
  ∃ l', for_loop n 0 (λ i l, l' ← f i (drop (np * i) l); Some (take (np * i) l ++ l')) l = Some l' ∧
    length l' = length l ∧ drop (np * n) l' = drop (np * n) l ∧ ∀ i, (i < n)%nat → block np i l' = v i.
Proof.
  intros Hl Hf. destruct (for_loop_inv (λ k l', length l' = length l ∧ drop (np * k) l' = drop (np * k) l ∧ ∀ i, (i < k)%nat → block np i l' = v i) n 0
    (λ i l, l' ← f i (drop (np * i) l); Some (take (np * i) l ++ l')) l) as (l' & E & H); [|intros i k Hi (H1 & H2 & H3)|exists l'; done].
  - split; [done|]. split; [done|]. intros; lia.
  - destruct (Hf i ltac:(lia)) as [L Hk]. assert (np * i + np ≤ length l)%nat by nia. rewrite Hk by (rewrite drop_length; lia). cbn [mbind option_bind]. eexists. split; [done|].
    assert (Lt : length (take (np * i) k) = (np * i)%nat) by (rewrite take_length; lia). split_and!.
    + rewrite !app_length, Lt, L, !drop_length. lia.
    + rewrite drop_app_ge by lia. rewrite Lt. replace (np * (i + 1) - np * i)%nat with np by nia. rewrite drop_app_alt by done. rewrite H2. rewrite drop_drop. f_equal. nia.
    + intros j Hj. unfold block. destruct (decide (j = i)) as [->|].
      * rewrite drop_app_alt by done. by rewrite take_app_alt by done.
      * rewrite <- (H3 j) by lia. unfold block. assert (np * j + np ≤ np * i)%nat by nia. rewrite drop_app_le by lia. rewrite take_app_le by (rewrite drop_length; lia). rewrite <- (take_drop (np * i) k) at 2. rewrite (drop_app_le (take (np * i) k)) by lia. rewrite take_app_le; [done|]. rewrite drop_length. lia.
Qed.
Lemma loop2 n np nq (f : nat → list R → list R → option (list R * list R)) (v w : nat → list R) l d : (np * n ≤ length l)%nat → (nq * n ≤ length d)%nat →
  (∀ i, (i < n)%nat → length (v i) = np ∧ length (w i) = nq ∧ ∀ k e, (np ≤ length k)%nat → (nq ≤ length e)%nat → f i k e = Some (v i ++ drop np k, w i ++ drop nq e)) →
  ∃ l' d', for_loop n 0 (λ i '(l, d), '(l', d') ← f i (drop (np * i) l) (drop (nq * i) d); Some (take (np * i) l ++ l', take (nq * i) d ++ d')) (l, d) = Some (l', d') ∧
    (length l' = length l ∧ drop (np * n) l' = drop (np * n) l ∧ ∀ i, (i < n)%nat → block np i l' = v i) ∧
    (length d' = length d ∧ drop (nq * n) d' = drop (nq * n) d ∧ ∀ i, (i < n)%nat → block nq i d' = w i).
Proof.
  intros Hl Hd Hf.
  destruct (loop1 n np (λ i k, Some (v i ++ drop np k)) v l Hl) as (l' & E1 & H1). { intros i Hi. split; [by apply Hf|done]. }
  destruct (loop1 n nq (λ i k, Some (w i ++ drop nq k)) w d Hd) as (d' & E2 & H2). { intros i Hi. split; [by apply Hf|done]. }
  exists l', d'. split; [|done]. 
  set (F1 := λ i l, l' ← (λ i k, Some (v i ++ drop np k)) i (drop (np * i) l); Some (take (np * i) l ++ l')) in E1.
  set (F2 := λ i l, l' ← (λ i k, Some (w i ++ drop nq k)) i (drop (nq * i) l); Some (take (nq * i) l ++ l')) in E2.
  assert (EP : for_loop n 0 (λ i, par (F1 i) (F2 i)) (l, d) = Some (l', d')). { rewrite for_loop_par. unfold par. cbn [fst snd]. rewrite E1. cbn [mbind option_bind]. by rewrite E2. }
  rewrite <- EP. clear E1 E2 EP H1 H2.
  assert (G : ∀ m lo l d, (lo + m = n)%nat → (np * n ≤ length l)%nat → (nq * n ≤ length d)%nat →
    for_loop m lo (λ i '(l, d), '(l', d') ← f i (drop (np * i) l) (drop (nq * i) d); Some (take (np * i) l ++ l', take (nq * i) d ++ d')) (l, d) = for_loop m lo (λ i, par (F1 i) (F2 i)) (l, d)); [|by apply G].
  clear l d Hl Hd l' d'. induction m as [|m IH]; intros lo l d Hlo Hl Hd; [done|]. cbn [for_loop]. destruct (Hf lo ltac:(lia)) as (L1 & L2 & Hk).
  assert (np * lo + np ≤ length l)%nat by nia. assert (nq * lo + nq ≤ length d)%nat by nia. rewrite Hk by (rewrite drop_length; lia). cbn [mbind option_bind par fst snd F1 F2]. unfold F1 at 1, F2 at 1. apply IH; [lia| |].
  - rewrite !app_length, take_length, !drop_length. lia.
  - rewrite !app_length, take_length, !drop_length. lia.
Qed.

(** Each function uses only the values of its point and writes only there. *)
Lemma upd_lt {X} (l : list X) i x : (i < length l)%nat → upd l i x = Some (<[i:=x]> l). Proof. apply upd_Some. Qed.
Ltac opened H := repeat (first
  [ match type of H with context [tv ?t ?x] => destruct (tv t x) eqn:?; cbn in H |- *; try discriminate H end
  | match type of H with context [td ?t ?x] => destruct (td t x) eqn:?; cbn in H |- *; try discriminate H end
  | match type of H with context [rdiv ?t ?x] => destruct (rdiv t x) eqn:?; cbn in H |- *; try discriminate H end
  | match type of H with context [Rlt_dec ?t ?x] => destruct (Rlt_dec t x) eqn:?; cbn in H |- *; try discriminate H end
  | match type of H with context [sf_smin ?F !! ?x] => destruct (sf_smin F !! x) eqn:?; cbn in H |- *; try discriminate H end ]).
Ltac evin H := repeat (cbn in H; first [rewrite decide_True in H by done | rewrite upd_Some in H by (cbn; lia)]); cbn in H.
Ltac both H := repeat (progress (opened H; evin H; ev)).
Ltac finish := intros; repeat match goal with H : ?x = _ |- context [?x] => rewrite H end; ev; repeat match goal with H : ?x = _ |- context [?x] => rewrite H; ev end; repeat match goal with |- context [Rlt_dec ?p ?q] => destruct (Rlt_dec p q); try (exfalso; lra) end; ev; reflexivity.
Lemma eval_kr_local m F w g s kr v : phases F w g → let np := pu_num (sf_pu F) in length s = np → eval_kr m F s (replicate np 0) = Some v →
  length v = np ∧ ∀ rest, (np ≤ length kr)%nat → eval_kr m F (s ++ rest) kr = Some (v ++ drop np kr).
Proof.
  intros HP np Hs E. subst np.
  destruct (phases_cases _ _ _ HP) as [(-> & -> & Epu)|[(-> & -> & Epu)|(-> & -> & Epu)]]; rewrite Epu in *; cbn [pu_num] in *; cbn [replicate] in E.
  - destruct s as [|a [|b [|c [|]]]]; try done.
    assert (∃ x y z, v = [x; y; z] ∧ ∀ rest k0 k1 k2 rk, eval_kr m F (a :: b :: c :: rest) (k0 :: k1 :: k2 :: rk) = Some (x :: y :: z :: rk)) as (x & y & z & -> & H).
    { unfold eval_kr in *. rewrite Epu in *. destruct m; [unfold simple3 in *|unfold stone3 in *|unfold gwseg3, pos in *; rewrite Epu in *]; both E; injection E as <-; do 3 eexists; (split; [reflexivity|]); finish. }
    split; [done|]. intros rest Hk. destruct (list3 kr Hk) as (k0 & k1 & k2 & rk & ->). apply H.
  - destruct s as [|a [|b [|]]]; try done.
    assert (∃ x y, v = [x; y] ∧ ∀ rest k0 k1 rk, eval_kr m F (a :: b :: rest) (k0 :: k1 :: rk) = Some (x :: y :: rk)) as (x & y & -> & H).
    { unfold eval_kr, two, used, pos in *. rewrite Epu in *. destruct m; both E; injection E as <-; do 2 eexists; (split; [reflexivity|]); finish. }
    split; [done|]. intros rest Hk. destruct (list2 kr Hk) as (k0 & k1 & rk & ->). apply H.
  - destruct s as [|a [|b [|]]]; try done.
    assert (∃ x y, v = [x; y] ∧ ∀ rest k0 k1 rk, eval_kr m F (a :: b :: rest) (k0 :: k1 :: rk) = Some (x :: y :: rk)) as (x & y & -> & H).
    { unfold eval_kr, two, used, pos in *. rewrite Epu in *. destruct m; both E; injection E as <-; do 2 eexists; (split; [reflexivity|]); finish. }
    split; [done|]. intros rest Hk. destruct (list2 kr Hk) as (k0 & k1 & rk & ->). apply H.
Qed.
#[local] Arguments fill0 : simpl never.
Lemma eval_kr_deriv_local m F w g s kr d v u : phases F w g → let np := pu_num (sf_pu F) in length s = np → eval_kr_deriv m F s (replicate np 0) (replicate (np * np) 0) = Some (v, u) →
  length v = np ∧ length u = (np * np)%nat ∧ ∀ rest, (np ≤ length kr)%nat → (np * np ≤ length d)%nat → eval_kr_deriv m F (s ++ rest) kr d = Some (v ++ drop np kr, u ++ drop (np * np) d).
Proof.
  intros HP np Hs E. subst np.
  destruct (phases_cases _ _ _ HP) as [(-> & -> & Epu)|[(-> & -> & Epu)|(-> & -> & Epu)]]; rewrite Epu in *; cbn [pu_num] in *; cbn [replicate Nat.mul Nat.add] in E.
  - destruct s as [|a [|b [|c [|]]]]; try done.
    assert (∃ x y z u0 u1 u2 u3 u4 u5 u6 u7 u8, v = [x; y; z] ∧ u = [u0; u1; u2; u3; u4; u5; u6; u7; u8] ∧ ∀ rest k0 k1 k2 rk e0 e1 e2 e3 e4 e5 e6 e7 e8 re,
      eval_kr_deriv m F (a :: b :: c :: rest) (k0 :: k1 :: k2 :: rk) (e0 :: e1 :: e2 :: e3 :: e4 :: e5 :: e6 :: e7 :: e8 :: re) = Some (x :: y :: z :: rk, u0 :: u1 :: u2 :: u3 :: u4 :: u5 :: u6 :: u7 :: u8 :: re)) as (x & y & z & u0 & u1 & u2 & u3 & u4 & u5 & u6 & u7 & u8 & -> & -> & H).
    { unfold eval_kr_deriv in *. rewrite Epu in *. cbn [pu_num Nat.mul Nat.add] in *. assert (Ef : ∀ e0 e1 e2 e3 e4 e5 e6 e7 e8 re, fill0 9 (e0 :: e1 :: e2 :: e3 :: e4 :: e5 :: e6 :: e7 :: e8 :: re) = Some (0 :: 0 :: 0 :: 0 :: 0 :: 0 :: 0 :: 0 :: 0 :: re)) by (intros; unfold fill0; ev; reflexivity). 
      rewrite Ef in E. cbn [mbind option_bind] in E.
      destruct m; [unfold simple3_deriv in *|unfold stone3_deriv in *|unfold gwseg3_deriv, pos in *; rewrite Epu in *]; both E; injection E as <- <-; do 12 eexists; (split; [reflexivity|]); (split; [reflexivity|]); intros; rewrite Ef; finish. }
    split; [done|]. split; [done|]. intros rest Hk Hd. destruct (list3 kr Hk) as (k0 & k1 & k2 & rk & ->). destruct (list9 d Hd) as (e0 & e1 & e2 & e3 & e4 & e5 & e6 & e7 & e8 & re & ->). apply H.
  - destruct s as [|a [|b [|]]]; try done.
    assert (∃ x y u0 u1 u2 u3, v = [x; y] ∧ u = [u0; u1; u2; u3] ∧ ∀ rest k0 k1 rk e0 e1 e2 e3 re, eval_kr_deriv m F (a :: b :: rest) (k0 :: k1 :: rk) (e0 :: e1 :: e2 :: e3 :: re) = Some (x :: y :: rk, u0 :: u1 :: u2 :: u3 :: re)) as (x & y & u0 & u1 & u2 & u3 & -> & -> & H).
    { unfold eval_kr_deriv, two_deriv, used, pos, fill0 in *. rewrite Epu in *. destruct m; both E; injection E as <- <-; do 6 eexists; (split; [reflexivity|]); (split; [reflexivity|]); finish. }
    split; [done|]. split; [done|]. intros rest Hk Hd. destruct (list2 kr Hk) as (k0 & k1 & rk & ->). destruct (list4 d Hd) as (e0 & e1 & e2 & e3 & re & ->). apply H.
  - destruct s as [|a [|b [|]]]; try done.
    assert (∃ x y u0 u1 u2 u3, v = [x; y] ∧ u = [u0; u1; u2; u3] ∧ ∀ rest k0 k1 rk e0 e1 e2 e3 re, eval_kr_deriv m F (a :: b :: rest) (k0 :: k1 :: rk) (e0 :: e1 :: e2 :: e3 :: re) = Some (x :: y :: rk, u0 :: u1 :: u2 :: u3 :: re)) as (x & y & u0 & u1 & u2 & u3 & -> & -> & H).
    { unfold eval_kr_deriv, two_deriv, used, pos, fill0 in *. rewrite Epu in *. destruct m; both E; injection E as <- <-; do 6 eexists; (split; [reflexivity|]); (split; [reflexivity|]); finish. }
    split; [done|]. split; [done|]. intros rest Hk Hd. destruct (list2 kr Hk) as (k0 & k1 & rk & ->). destruct (list4 d Hd) as (e0 & e1 & e2 & e3 & re & ->). apply H.
Qed.
