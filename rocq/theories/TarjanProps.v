(** C14: tarjan finds the strongly connected components in dependency order
    (opm/core/transport/reorder/tarjan.c). *)
From stdpp Require Import relations.
From Verif Require Import Base CsrSpec CsrProof DfsModel DfsProof DfsProps TarjanModel TarjanProof.

(** Two vertices that can reach each other. *)
Definition mutual (rows : list (list nat)) (u v : nat) : Prop :=
  rtc (edge rows) u v ∧ rtc (edge rows) v u.

Lemma holds_reads ia ja rows : holds_rows ia ja rows → reads ia ja rows.
Proof.
  intros H u r Hr. destruct (row_pos rows ia ja H u) as (b & H1 & H2 & _ & H3); [by eapply lookup_lt_Some|].
  assert (E : row rows u = r) by (unfold row; by rewrite Hr). rewrite E in H2. rewrite E in H3. eauto.
Qed.

(** The arrays that can be read as the rows: the column array may be longer
    than needed, as it is in compute_sequence. *)
Theorem C14_reads rows ia ja :
  reads ia ja rows → in_range rows →
  ∃ m vert comp ncomp comps,
    (∀ fuel, m ≤ fuel → tarjan fuel (length rows) ia ja = Some (vert, comp, ncomp)) ∧
    length comp = S (length rows) ∧ length comps = ncomp ∧
    holds_rows (take (S ncomp) comp) vert comps ∧
    vert ≡ₚ seq 0 (length rows) ∧
    (∀ C, C ∈ comps → C ≠ []) ∧
    (∀ C u, C ∈ comps → u ∈ C → ∀ w, w ∈ C ↔ mutual rows u w) ∧
    (∀ i j Ci Cj u v, comps !! i = Some Ci → comps !! j = Some Cj → u ∈ Ci → v ∈ Cj → edge rows u v → j ≤ i).
Proof.
  intros Hr Hrange.
  destruct (tarjan_ok rows ia ja Hr) as (m & vert & comp & comps & Hrun & Hv & Hc & Hp & Hne & Hl & Hcl & Hscc).
  { intros u v H. apply (Hrange u v). by apply edge_E. }
  exists m, vert, comp, (length comps), comps. split_and!; try done.
  - rewrite Hc, Hv. apply starts_holds.
  - intros C u HC Hu w. rewrite (Hscc C u HC Hu w). unfold mutual. by rewrite !rtc_edge_E.
  - intros i j Ci Cj u v Hi Hj Hu Hv' He. apply edge_E in He.
    specialize (Hcl i Ci u v Hi Hu He). apply elem_of_list_In, in_concat in Hcl as (D & HD & HvD).
    apply elem_of_list_In in HD. apply elem_of_list_In in HvD.
    apply elem_of_list_lookup in HD as [k Hk].
    assert (k < S i). { apply lookup_lt_Some in Hk. rewrite take_length in Hk. lia. }
    rewrite lookup_take in Hk by done.
    destruct (decide (j = k)) as [->|Hne']; [lia|]. exfalso.
    (* v cannot be in two components *)
    assert (Hnd : NoDup (concat comps)).
    { rewrite <- Hv. rewrite Hp. apply NoDup_seq. }
    clear -Hnd Hj Hk Hv' HvD Hne'. revert j k Hj Hk Hne'.
    induction comps as [|C l IH]; intros [|j] [|k] Hj Hk Hne; simpl in *; try done.
    + apply NoDup_app in Hnd as (_ & Hx & _). simplify_eq. apply (Hx v Hv').
      apply elem_of_list_In, in_concat. exists D. split; apply elem_of_list_In; [by eapply elem_of_list_lookup_2|done].
    + apply NoDup_app in Hnd as (_ & Hx & _). simplify_eq. apply (Hx v HvD).
      apply elem_of_list_In, in_concat. exists Cj. split; apply elem_of_list_In; [by eapply elem_of_list_lookup_2|done].
    + apply NoDup_app in Hnd as (_ & _ & Hx). apply (IH Hx j k); [done|done|lia].
Qed.
Print Assumptions C14_reads.

(** Every directed graph in compressed form: tarjan terminates without leaving
    its arrays or failing an assertion; the first ncomp + 1 entries of comp
    delimit the components in vert; vert is a permutation of the vertices; each
    component is exactly a class of mutually reachable vertices; edges lead to
    the same or to an earlier component. *)
Theorem C14_components rows ia ja :
  holds_rows ia ja rows → in_range rows →
  ∃ m vert comp ncomp comps,
    (∀ fuel, m ≤ fuel → tarjan fuel (length rows) ia ja = Some (vert, comp, ncomp)) ∧
    length comp = S (length rows) ∧ length comps = ncomp ∧
    holds_rows (take (S ncomp) comp) vert comps ∧
    vert ≡ₚ seq 0 (length rows) ∧
    (∀ C, C ∈ comps → C ≠ []) ∧
    (∀ C u, C ∈ comps → u ∈ C → ∀ w, w ∈ C ↔ mutual rows u w) ∧
    (∀ i j Ci Cj u v, comps !! i = Some Ci → comps !! j = Some Cj → u ∈ Ci → v ∈ Cj → edge rows u v → j ≤ i).
Proof. intros H. by apply C14_reads, holds_reads. Qed.
Print Assumptions C14_components.

(** An acyclic graph (no two different vertices reach each other) yields
    components of one vertex each, and every edge other than a self loop leads
    to a vertex earlier in the sequence. *)
Theorem C14_acyclic rows ia ja :
  reads ia ja rows → in_range rows → (∀ u v, mutual rows u v → u = v) →
  ∃ m vert comp,
    (∀ fuel, m ≤ fuel → tarjan fuel (length rows) ia ja = Some (vert, comp, length rows)) ∧
    comp = seq 0 (S (length rows)) ∧ vert ≡ₚ seq 0 (length rows) ∧
    (∀ i j u v, vert !! i = Some u → vert !! j = Some v → edge rows u v → j ≤ i).
Proof.
  intros Hr Hrange Hac.
  destruct (C14_reads rows ia ja Hr Hrange) as (m & vert & comp & ncomp & comps & Hrun & Hl & Hlc & Hh & Hp & Hne & Hscc & Hord).
  assert (Hnd : NoDup (concat comps)).
  { destruct (holds_rows_unique _ _ _ Hh) as [_ <-]. rewrite Hp. apply NoDup_seq. }
  assert (Hone : ∀ C, C ∈ comps → ∃ u, C = [u]).
  { intros C HC. pose proof (Hne C HC). destruct C as [|u [|v C]]; [done|by exists u|].
    assert (u = v). { apply Hac. apply (Hscc (u :: v :: C) u HC ltac:(left) v). right; left. }
    subst v. exfalso. apply elem_of_list_split in HC as (l1 & l2 & ->).
    rewrite concat_app in Hnd. simpl in Hnd. apply NoDup_app in Hnd as (_ & _ & Hnd).
    apply NoDup_cons in Hnd as [Hnd _]. apply Hnd. left. }
  assert (Hmap : comps = (λ u, [u]) <$> vert).
  { destruct (holds_rows_unique _ _ _ Hh) as [_ ->]. clear -Hone. induction comps as [|C l IH]; [done|].
    destruct (Hone C ltac:(left)) as [u ->]. simpl. f_equal. apply IH. intros; apply Hone; by right. }
  assert (Hn : length vert = length rows) by (rewrite Hp; apply seq_length).
  assert (ncomp = length rows) as -> by (rewrite <- Hlc, Hmap, fmap_length; done).
  exists m, vert, comp. split_and!; [done| |done|].
  - destruct (holds_rows_unique _ _ _ Hh) as [Hs _]. rewrite take_ge in Hs by lia. rewrite Hs, Hmap.
    rewrite <- Hn. clear. assert (G : ∀ a, starts a ((λ u, [u]) <$> vert) = seq a (S (length vert))); [|apply G].
    induction vert as [|u l IH]; intros a; [done|]. simpl. f_equal. rewrite IH. simpl. f_equal; [lia|]. f_equal. lia.
  - intros i j u v Hi Hj He. apply (Hord i j [u] [v] u v); [| | left | left |done];
      by rewrite Hmap, list_lookup_fmap, ?Hi, ?Hj.
Qed.
Print Assumptions C14_acyclic.

(** Non-vacuity: two cycles joined by an edge, a self loop, an isolated vertex,
    a double edge; the components come out in dependency order. *)
Definition graph1 : list (list nat) := [[1]; [2; 3]; [0; 2]; [4; 4]; [5]; [3]; []].
Example C14_example_components :
  holds_rows [0;1;3;5;7;8;9;9] [1; 2;3; 0;2; 4;4; 5; 3] graph1 ∧ in_range graph1 ∧
  tarjan 40 7 [0;1;3;5;7;8;9;9] [1; 2;3; 0;2; 4;4; 5; 3]
    = Some ([5;4;3; 2;1;0; 6], [0;3;6;7;4;2;1;6], 3).
Proof.
  split_and!.
  - apply (starts_holds graph1).
  - intros u v (r & Hu & Hv). do 7 (destruct u as [|u]; [simplify_eq/=; repeat (apply elem_of_cons in Hv as [->|Hv]; [lia|]); by apply elem_of_nil in Hv|]). done.
  - vm_compute. done.
Qed.
(** The column array may be too long; an acyclic graph. *)
Example C14_example_acyclic :
  reads [0;2;3;3] [1;2; 2; 9;9] [[1;2];[2];[]] ∧ in_range [[1;2];[2];[]] ∧
  (∀ u v, mutual [[1;2];[2];[]] u v → u = v) ∧
  tarjan 20 3 [0;2;3;3] [1;2; 2; 9;9] = Some ([2;1;0], [0;1;2;3], 3).
Proof.
  assert (Hlt : ∀ u v, edge [[1;2];[2];[]] u v → u < v < 3).
  { intros u v (r & Hu & Hv). do 3 (destruct u as [|u]; [simplify_eq/=; repeat (apply elem_of_cons in Hv as [->|Hv]; [lia|]); by apply elem_of_nil in Hv|]). done. }
  split_and!.
  - intros u r Hr. do 3 (destruct u as [|u]; [simplify_eq/=; eexists; split_and!; [done|done|]; intros t Ht; simpl in Ht; do 2 (destruct t as [|t]; [done || lia|]); lia|]). done.
  - intros u v H. apply Hlt in H. simpl. lia.
  - intros u v [H1 H2].
    assert (G : ∀ a b, rtc (edge [[1;2];[2];[]]) a b → a ≤ b).
    { intros a b. induction 1 as [|a b c H _ IH]; [lia|]. apply Hlt in H. lia. }
    apply G in H1. apply G in H2. lia.
  - vm_compute. done.
Qed.
