(** Lemmas about the arrays of the coarse topology. *)
From Verif Require Import Base HashModel HashProof HashProps CsrModel CsrSpec CsrProof CoarseModel CoarseSpec CoarseProof.
Unset Default Proof Using.

Definition flat (prs : list (Z * Z)) : list Z := concat ((λ xy, [xy.1; xy.2]) <$> prs).
Fixpoint pairs_from (b : nat) (Ls : list (list nbr)) : list (Z * Z) :=
  match Ls with [] => [] | L :: Ls => ((λ n, (Z.of_nat b, nb_b n)) <$> L) ++ pairs_from (S b) Ls end.
Definition ends (xy : Z * Z) : list nat := Z.to_nat xy.1 :: (if decide (0 ≤ xy.2)%Z then [Z.to_nat xy.2] else []).
Definition keys (prs : list (Z * Z)) : list nat := concat (ends <$> prs).
Fixpoint items_from (i : nat) (prs : list (Z * Z)) : list (nat * nat) :=
  match prs with [] => [] | xy :: prs => ((λ b, (b, i)) <$> ends xy) ++ items_from (S i) prs end.
Definition count_set (x : nbr) : nat := match nb_set x with Some t => count_elms t | None => 0 end.

Lemma flat_app a b : flat (a ++ b) = flat a ++ flat b.
Proof. unfold flat. by rewrite fmap_app, concat_app. Qed.
Lemma flat_length a : length (flat a) = 2 * length a.
Proof. induction a as [|x a IH]; [done|]. change (flat (x :: a)) with ([x.1; x.2] ++ flat a). rewrite app_length, IH. cbn. lia. Qed.
Lemma flat_lookup a i : flat a !! (2 * i) = fst <$> a !! i ∧ flat a !! (2 * i + 1) = snd <$> a !! i.
Proof.
  revert i. induction a as [|x a IH]; intros i; [by rewrite !lookup_nil|]. change (flat (x :: a)) with ([x.1; x.2] ++ flat a). destruct i as [|i]; [done|].
  rewrite !lookup_app_r by (cbn; lia). replace (2 * S i - length [x.1; x.2]) with (2 * i) by (cbn; lia). replace (2 * S i + 1 - length [x.1; x.2]) with (2 * i + 1) by (cbn; lia). apply IH.
Qed.
Lemma keys_app a b : keys (a ++ b) = keys a ++ keys b.
Proof. unfold keys. by rewrite fmap_app, concat_app. Qed.
Lemma items_keys i prs : (items_from i prs).*1 = keys prs.
Proof.
  revert i. induction prs as [|x prs IH]; intros i; [done|]. cbn [items_from]. rewrite fmap_app, IH. unfold keys. cbn [fmap list_fmap concat]. f_equal.
  rewrite <- list_fmap_compose. rewrite <- (list_fmap_id (ends x)) at 2. by apply list_fmap_ext.
Qed.
Lemma items_length i prs : length (items_from i prs) = length (keys prs).
Proof. by rewrite <- (items_keys i), fmap_length. Qed.
Lemma count_all_app a b pos : count_all pos (a ++ b) = count_all pos a ≫= λ pos, count_all pos b.
Proof. revert pos. induction a as [|k a IH]; intros pos; [done|]. cbn [count_all app]. destruct (count_one pos k); [|done]. cbn [mbind option_bind]. apply IH. Qed.
Lemma push_all_app a b s : push_all s (a ++ b) = push_all s a ≫= λ s, push_all s b.
Proof. revert s. induction a as [|k a IH]; intros s; [done|]. cbn [push_all app]. destruct (push_one s k); [|done]. cbn [mbind option_bind]. apply IH. Qed.

(** ** The coarse faces *)
Lemma coarsef_nbrs_ok b arr L2 : ∀ L1 done rest pos pos' nsub,
  (∀ i x, (L1 ++ L2) !! i = Some x → arr !! i = Some (Some x)) → length rest ≥ 2 * length L2 →
  count_all pos (keys ((λ n, (Z.of_nat b, nb_b n)) <$> L2)) = Some pos' →
  coarsef_nbrs b (length L2) (length L1) arr (length done, flat done ++ rest, pos, nsub)
  = Some (length done + length L2, flat (done ++ ((λ n, (Z.of_nat b, nb_b n)) <$> L2)) ++ drop (2 * length L2) rest, pos', nsub + sum_list_with count_set L2).
Proof.
  induction L2 as [|x L2 IH]; intros L1 dn rest pos pos' nsub Harr Hr Hc; cbn [length coarsef_nbrs].
  - cbn in Hc. injection Hc as <-. rewrite fmap_nil, app_nil_r. cbn. by rewrite !Nat.add_0_r, drop_0.
  - rewrite (Harr (length L1) x) by (rewrite lookup_app_r by lia; by rewrite Nat.sub_diag). cbn [mbind option_bind]. cbn [length] in Hr.
    destruct rest as [|r1 [|r2 rest]]; cbn [length] in Hr; try lia.
    rewrite upd_Some by (rewrite app_length, flat_length; cbn; lia). cbn [mbind option_bind].
    replace (<[2 * length dn := Z.of_nat b]> (flat dn ++ r1 :: r2 :: rest)) with (flat dn ++ Z.of_nat b :: r2 :: rest).
    2: { rewrite insert_app_r_alt by (rewrite flat_length; lia). rewrite flat_length, Nat.sub_diag. done. }
    rewrite upd_Some by (rewrite app_length, flat_length; cbn; lia). cbn [mbind option_bind].
    replace (<[2 * length dn + 1 := nb_b x]> (flat dn ++ Z.of_nat b :: r2 :: rest)) with (flat (dn ++ [(Z.of_nat b, nb_b x)]) ++ rest).
    2: { rewrite insert_app_r_alt by (rewrite flat_length; lia). rewrite flat_length. replace (2 * length dn + 1 - 2 * length dn) with 1 by lia. cbn. rewrite flat_app. cbn. by rewrite <- app_assoc. }
    rewrite fmap_cons in Hc. change (keys ((Z.of_nat b, nb_b x) :: ((λ n, (Z.of_nat b, nb_b n)) <$> L2))) with (ends (Z.of_nat b, nb_b x) ++ keys ((λ n, (Z.of_nat b, nb_b n)) <$> L2)) in Hc.
    rewrite count_all_app in Hc. unfold ends in Hc. cbn [fst snd] in Hc. rewrite Nat2Z.id in Hc. cbn [count_all] in Hc.
    destruct (count_one pos b) as [pos1|]; [|done]. cbn [mbind option_bind] in Hc |- *.
    assert (∃ pos2, (if decide (0 ≤ nb_b x)%Z then count_one pos1 (Z.to_nat (nb_b x)) else Some pos1) = Some pos2 ∧ count_all pos2 (keys ((λ n, (Z.of_nat b, nb_b n)) <$> L2)) = Some pos') as (pos2 & -> & Hc2).
    { destruct (decide (0 ≤ nb_b x)%Z); cbn [count_all mbind option_bind] in Hc.
      - destruct (count_one pos1 (Z.to_nat (nb_b x))) as [pos2|]; [|done]. by exists pos2.
      - by exists pos1. }
    cbn [mbind option_bind]. specialize (IH (L1 ++ [x]) (dn ++ [(Z.of_nat b, nb_b x)]) rest pos2 pos' (nsub + count_set x)).
    rewrite !app_length in IH. cbn [length] in IH. replace (length L1 + 1) with (S (length L1)) in IH by lia. replace (length dn + 1) with (S (length dn)) in IH by lia.
    replace (match nb_set x with Some t => nsub + count_elms t | None => nsub end) with (nsub + count_set x) by (unfold count_set; destruct (nb_set x); lia).
    rewrite IH; [|by rewrite <- app_assoc|lia|done]. rewrite <- app_assoc, fmap_cons. cbn [app sum_list_with]. replace (2 * S (length L2)) with (S (S (2 * length L2))) by lia. cbn [drop].
    replace (S (length dn) + length L2) with (length dn + S (length L2)) by lia. by rewrite Nat.add_assoc.
Qed.

Lemma coarsef_blocks_ok Ls : ∀ bns bns1 done rest pos pos' nsub, Forall2 laid_opt bns Ls → length rest = 2 * length (concat Ls) →
  count_all pos (keys (pairs_from (length bns1) Ls)) = Some pos' →
  coarsef_blocks (length Ls) (length bns1) (bns1 ++ bns) (length done, flat done ++ rest, pos, nsub)
  = Some (length done + length (concat Ls), flat (done ++ pairs_from (length bns1) Ls), pos', nsub + sum_list_with count_set (concat Ls)).
Proof.
  induction Ls as [|L Ls IH]; intros bns bns1 dn rest pos pos' nsub HL Hr Hc; cbn [length coarsef_blocks].
  - cbn in Hc. injection Hc as <-. cbn. destruct rest; [|done]. by rewrite !app_nil_r, !Nat.add_0_r.
  - apply Forall2_cons_inv_r in HL as (x & bns' & Hx & HL & ->). rewrite lookup_app_r by lia. rewrite Nat.sub_diag. cbn [lookup list_lookup mbind option_bind].
    cbn [pairs_from] in Hc. rewrite keys_app, count_all_app in Hc. destruct (count_all pos _) as [pos1|] eqn:Hc1; [|done]. cbn [mbind option_bind] in Hc.
    cbn [concat] in Hr. rewrite app_length in Hr.
    assert (E : (match x with Some x => coarsef_nbrs (length bns1) (ns_num x) 0 (ns_arr x) (length dn, flat dn ++ rest, pos, nsub) | None => Some (length dn, flat dn ++ rest, pos, nsub) end)
      = Some (length dn + length L, flat (dn ++ ((λ n, (Z.of_nat (length bns1), nb_b n)) <$> L)) ++ drop (2 * length L) rest, pos1, nsub + sum_list_with count_set L)).
    { destruct x as [n|]; cbn in Hx.
      - rewrite (ld_num _ _ Hx). apply (coarsef_nbrs_ok (length bns1) (ns_arr n) L []); [|lia|done]. intros i y Hy. by apply (ld_arr _ _ Hx).
      - subst L. cbn in Hc1. injection Hc1 as <-. rewrite fmap_nil, app_nil_r. cbn. by rewrite !Nat.add_0_r, drop_0. }
    rewrite E. cbn [mbind option_bind]. specialize (IH bns' (bns1 ++ [x]) (dn ++ ((λ n, (Z.of_nat (length bns1), nb_b n)) <$> L)) (drop (2 * length L) rest) pos1 pos' (nsub + sum_list_with count_set L) HL).
    rewrite !app_length, fmap_length in IH. cbn [length] in IH. replace (length bns1 + 1) with (S (length bns1)) in IH by lia. rewrite <- app_assoc in IH. cbn [app] in IH.
    rewrite IH; [|rewrite drop_length; lia|done]. cbn [concat pairs_from]. rewrite app_length, sum_list_with_app, <- app_assoc. f_equal. f_equal; [f_equal; f_equal; lia|lia].
Qed.

Lemma pairs_length b Ls : length (pairs_from b Ls) = length (concat Ls).
Proof. revert b. induction Ls as [|L Ls IH]; intros b; [done|]. cbn. by rewrite !app_length, fmap_length, IH. Qed.

(** Numbers of the blocks in range. *)
Definition in_range (nblk : nat) (prs : list (Z * Z)) : Prop := ∀ x y, (x, y) ∈ prs → (0 ≤ x < Z.of_nat nblk ∧ y < Z.of_nat nblk ∧ x ≠ y)%Z.
Lemma keys_range nblk prs : in_range nblk prs → Forall (λ k, k < nblk) (keys prs).
Proof.
  intros H. apply Forall_forall. intros k Hk. unfold keys in Hk. apply elem_of_list_In, in_concat in Hk as (l & Hl & Hk). apply elem_of_list_In in Hl, Hk. apply elem_of_list_fmap in Hl as ([x y] & -> & Hxy).
  destruct (H x y Hxy) as (? & ? & _). unfold ends in Hk. cbn [fst snd] in Hk. apply elem_of_cons in Hk as [->|Hk]; [lia|]. destruct (decide (0 ≤ y)%Z); [|by apply elem_of_nil in Hk]. apply elem_of_list_singleton in Hk as ->. lia.
Qed.

Lemma final_faces_ok prs2 : ∀ prs1 s, (∀ x y, (x, y) ∈ prs2 → (0 ≤ x)%Z ∧ x ≠ y) →
  final_faces (length prs2) (length prs1) (flat (prs1 ++ prs2)) s = push_all s (items_from (length prs1) prs2).
Proof.
  induction prs2 as [|[x y] prs2 IH]; intros prs1 s H; cbn [length final_faces items_from]; [done|].
  destruct (flat_lookup (prs1 ++ (x, y) :: prs2) (length prs1)) as [F1 F2]. rewrite F1, F2. rewrite lookup_app_r by lia. rewrite Nat.sub_diag. cbn [lookup list_lookup fmap option_fmap option_map fst snd mbind option_bind].
  destruct (H x y) as [Hx Hxy]; [by left|]. rewrite decide_True by done. rewrite decide_True by done.
  rewrite push_all_app. unfold ends. cbn [fst snd].
  specialize (IH (prs1 ++ [(x, y)])). rewrite app_length in IH. cbn [length] in IH. replace (length prs1 + 1) with (S (length prs1)) in IH by lia. rewrite <- app_assoc in IH. cbn [app] in IH.
  rewrite fmap_cons. cbn [push_all]. destruct (push_one s (Z.to_nat x, length prs1)) as [s1|]; [|done]. cbn [mbind option_bind].
  destruct (decide (0 ≤ y)%Z).
  - cbn [fmap list_fmap push_all]. destruct (push_one s1 (Z.to_nat y, length prs1)) as [s2|]; [|done]. cbn [mbind option_bind]. apply IH. intros ???. apply H. by right.
  - cbn [fmap list_fmap push_all mbind option_bind]. apply IH. intros ???. apply H. by right.
Qed.

(** The rows of the items. *)
Lemma row_items_cons b i xy prs : row_of (items_from i (xy :: prs)) b = row_of ((λ b, (b, i)) <$> ends xy) b ++ row_of (items_from (S i) prs) b.
Proof. cbn [items_from]. by rewrite row_of_app. Qed.
Lemma items_elem b i j prs : (b, j) ∈ items_from i prs ↔ i ≤ j ∧ ∃ xy, prs !! (j - i) = Some xy ∧ b ∈ ends xy.
Proof.
  revert i. induction prs as [|xy prs IH]; intros i; cbn [items_from].
  - rewrite elem_of_nil. split; [done|]. intros (_ & xy & H & _). done.
  - rewrite elem_of_app, IH, elem_of_list_fmap. split.
    + intros [(b' & [= -> ->] & Hb)|(Hij & xy' & Hl & Hb)].
      * split; [done|]. exists xy. by rewrite Nat.sub_diag.
      * split; [lia|]. exists xy'. replace (j - i) with (S (j - S i)) by lia. done.
    + intros (Hij & xy' & Hl & Hb). destruct (decide (i = j)) as [->|].
      * left. rewrite Nat.sub_diag in Hl. injection Hl as ->. by exists b.
      * right. split; [lia|]. exists xy'. replace (j - i) with (S (j - S i)) in Hl by lia. done.
Qed.
Lemma row_elem (items : list (nat * nat)) b j : j ∈ row_of items b ↔ (b, j) ∈ items.
Proof.
  unfold row_of. rewrite elem_of_list_fmap. split.
  - intros ([b' j'] & -> & H). apply elem_of_list_filter in H as [E H]. cbn in E. by subst b'.
  - intros H. exists (b, j). split; [done|]. apply elem_of_list_filter. done.
Qed.
Lemma row_sorted b i prs : (∀ x y, (x, y) ∈ prs → (0 ≤ x)%Z ∧ x ≠ y) → StronglySorted lt (row_of (items_from i prs) b).
Proof.
  revert i. induction prs as [|[x y] prs IH]; intros i H; [constructor|]. rewrite row_items_cons.
  assert (Hrest : StronglySorted lt (row_of (items_from (S i) prs) b)) by (apply IH; intros ???; apply H; by right).
  assert (Hge : Forall (lt i) (row_of (items_from (S i) prs) b)).
  { apply Forall_forall. intros j Hj. apply row_elem, items_elem in Hj as [Hj _]. lia. }
  assert (row_of ((λ b, (b, i)) <$> ends (x, y)) b = [] ∨ row_of ((λ b, (b, i)) <$> ends (x, y)) b = [i]) as [->| ->]; [|done|by constructor].
  destruct (H x y) as [Hx Hxy]; [by left|]. unfold ends. cbn [fst snd]. destruct (decide (0 ≤ y)%Z); unfold row_of; rewrite !fmap_cons, fmap_nil, !filter_cons, filter_nil; cbn [fst]; repeat case_decide; cbn; try (by left); try (by right). lia.
Qed.

(** ** The sub-faces *)
Definition members_of (x : nbr) : list Z := match nb_set x with Some t => members (hs_s t) | None => [] end.
Definition full (h : Z → nat → nat) (x : nbr) : Prop := ∃ t p, nb_set x = Some t ∧ winv h t p.

Lemma copy_set_ok l : ∀ dn rest, length (members l) ≤ length rest →
  copy_set l (length dn) (dn ++ rest) = Some (length dn + length (members l), (dn ++ members l) ++ drop (length (members l)) rest).
Proof.
  induction l as [|x l IH]; intros dn rest H; cbn [copy_set].
  - cbn. by rewrite app_nil_r, Nat.add_0_r, drop_0.
  - unfold members in *. rewrite filter_cons in *. destruct (decide (x ≠ (-1)%Z)) as [Hx|Hx].
    + cbn [length] in *. destruct rest as [|r rest]; [cbn in H; lia|]. cbn [length] in H.
      rewrite upd_Some by (rewrite app_length; cbn; lia). cbn [mbind option_bind]. rewrite insert_app_r_alt by lia. rewrite Nat.sub_diag. change (<[0:=x]> (r :: rest)) with (x :: rest).
      specialize (IH (dn ++ [x]) rest). rewrite app_length in IH. cbn [length] in IH. replace (length dn + 1) with (S (length dn)) in IH by lia. rewrite <- app_assoc in IH. cbn [app] in IH.
      rewrite IH by lia. f_equal. f_equal; [lia|]. by rewrite <- !app_assoc.
    + apply IH. done.
Qed.
Lemma count_members h x : full h x → count_set x = length (members_of x).
Proof. intros (t & p & E & Hw). unfold count_set, members_of. rewrite E. by eapply count_correct. Qed.

(** [spos] after the rows [rs]. *)
Definition spos_ok (rs : list (list Z)) (spos : list nat) : Prop := ∀ k, k ≤ length rs → spos !! k = Some (length (concat (take k rs))).
Lemma spos_snoc rs r spos : spos_ok rs spos → S (length rs) < length spos → spos_ok (rs ++ [r]) (<[S (length rs) := length (concat rs) + length r]> spos).
Proof.
  intros H Hl k Hk. rewrite app_length in Hk. cbn in Hk. destruct (decide (k = S (length rs))) as [->|].
  - rewrite list_lookup_insert by done. rewrite take_ge by (rewrite app_length; cbn; lia). rewrite concat_app, app_length. cbn. by rewrite app_nil_r.
  - rewrite list_lookup_insert_ne by done. rewrite H by lia. rewrite take_app_le by lia. done.
Qed.

Lemma sub_nbrs_ok h arr L2 : ∀ L1 rs spos rest, Forall (full h) L2 → (∀ i x, (L1 ++ L2) !! i = Some x → arr !! i = Some (Some x)) →
  spos_ok rs spos → length rs + length L2 < length spos → sum_list_with count_set L2 ≤ length rest →
  ∃ spos', sub_nbrs (length L2) (length L1) arr (length rs, length (concat rs), spos, concat rs ++ rest)
    = Some (true, (length (rs ++ (members_of <$> L2)), length (concat (rs ++ (members_of <$> L2))), spos', concat (rs ++ (members_of <$> L2)) ++ drop (sum_list_with count_set L2) rest)) ∧
    spos_ok (rs ++ (members_of <$> L2)) spos' ∧ length spos' = length spos.
Proof.
  induction L2 as [|x L2 IH]; intros L1 rs spos rest Hf Harr Hs Hl Hr; cbn [length sub_nbrs].
  - exists spos. rewrite fmap_nil, app_nil_r. cbn. rewrite drop_0. done.
  - apply Forall_cons in Hf as [Hx Hf]. rewrite (Harr (length L1) x) by (rewrite lookup_app_r by lia; by rewrite Nat.sub_diag). cbn [mbind option_bind].
    pose proof (count_members h x Hx) as Hcx. destruct Hx as (t & p & E & Hw). rewrite E. unfold members_of in Hcx. rewrite E in Hcx.
    assert (slice (hs_s t) 0 (hs_m t) = Some (hs_s t)) as ->.
    { destruct Hw as [Hw1 Hw2]. rewrite Hw1, <- (inv_len _ _ _ Hw2). apply slice_pointwise; [done|]. intros; done. }
    cbn [mbind option_bind]. cbn [sum_list_with length] in Hr, Hl. rewrite copy_set_ok by lia. cbn [mbind option_bind]. rewrite upd_Some by lia. cbn [mbind option_bind].
    destruct (IH (L1 ++ [x]) (rs ++ [members (hs_s t)]) (<[S (length rs) := length (concat rs) + length (members (hs_s t))]> spos) (drop (length (members (hs_s t))) rest)) as (spos' & E' & S' & L').
    + done.
    + by rewrite <- app_assoc.
    + by apply spos_snoc; [|lia].
    + rewrite app_length, insert_length. cbn. lia.
    + rewrite drop_length. lia.
    + exists spos'. rewrite concat_app in E'. cbn [concat] in E'. rewrite app_nil_r in E'.
      rewrite !app_length in E'. cbn [length] in E'. replace (length L1 + 1) with (S (length L1)) in E' by lia. replace (length rs + 1) with (S (length rs)) in E' by lia.
      rewrite E'. rewrite insert_length in L'. rewrite fmap_cons. assert (members_of x = members (hs_s t)) as -> by (unfold members_of; by rewrite E).
      rewrite <- !app_assoc in *. cbn [app] in *. split; [|done]. rewrite drop_drop. cbn [sum_list_with]. rewrite Hcx. rewrite !app_length. cbn [length]. f_equal. f_equal. f_equal. f_equal. f_equal. lia.
Qed.

Lemma sub_blocks_ok h Ls : ∀ bns bns1 rs spos rest, Forall2 laid_opt bns Ls → Forall (Forall (full h)) Ls → spos_ok rs spos → length rs + length (concat Ls) < length spos →
  length rest = sum_list_with count_set (concat Ls) →
  ∃ spos' cf sp, sub_blocks (length Ls) (length bns1) (bns1 ++ bns) (length rs, length (concat rs), spos, concat rs ++ rest)
    = Some (true, (cf, sp, spos', concat (rs ++ (members_of <$> concat Ls)))) ∧
    spos_ok (rs ++ (members_of <$> concat Ls)) spos' ∧ length spos' = length spos.
Proof.
  induction Ls as [|L Ls IH]; intros bns bns1 rs spos rest HL Hf Hs Hl Hr; cbn [length sub_blocks].
  - cbn in Hr. destruct rest; [|done]. exists spos. eexists _, _. cbn [concat fmap list_fmap]. rewrite !app_nil_r. done.
  - apply Forall2_cons_inv_r in HL as (x & bns' & Hx & HL & ->). apply Forall_cons in Hf as [HfL Hf]. rewrite lookup_app_r by lia. rewrite Nat.sub_diag. cbn [lookup list_lookup mbind option_bind].
    cbn [concat] in Hl, Hr. rewrite app_length in Hl. rewrite sum_list_with_app in Hr.
    assert (∃ spos1, (match x with Some x => sub_nbrs (ns_num x) 0 (ns_arr x) (length rs, length (concat rs), spos, concat rs ++ rest) | None => Some (true, (length rs, length (concat rs), spos, concat rs ++ rest)) end)
      = Some (true, (length (rs ++ (members_of <$> L)), length (concat (rs ++ (members_of <$> L))), spos1, concat (rs ++ (members_of <$> L)) ++ drop (sum_list_with count_set L) rest)) ∧
      spos_ok (rs ++ (members_of <$> L)) spos1 ∧ length spos1 = length spos) as (spos1 & -> & S1 & L1).
    { destruct x as [n|]; cbn in Hx.
      - rewrite (ld_num _ _ Hx). apply (sub_nbrs_ok h (ns_arr n) L []); try done; try lia. intros i y Hy. by apply (ld_arr _ _ Hx).
      - subst L. exists spos. rewrite fmap_nil, app_nil_r. cbn. by rewrite drop_0. }
    cbn [mbind option_bind]. destruct (IH bns' (bns1 ++ [x]) (rs ++ (members_of <$> L)) spos1 (drop (sum_list_with count_set L) rest) HL Hf S1) as (spos' & cf & sp & E & S' & L').
    + rewrite app_length, fmap_length. lia.
    + rewrite drop_length. lia.
    + exists spos', cf, sp. rewrite app_length in E. cbn [length] in E. replace (length bns1 + 1) with (S (length bns1)) in E by lia. rewrite <- (app_assoc bns1) in E. cbn [app] in E. rewrite E.
      cbn [concat]. rewrite fmap_app, app_assoc. split; [done|]. split; [done|congruence].
Qed.

Lemma delimits_concat rs spos : length spos = S (length rs) → spos_ok rs spos → delimits spos (concat rs) rs.
Proof.
  intros Hl Hs. split; [done|]. split; [by rewrite Hs by lia|]. split; [rewrite Hs by lia; by rewrite take_ge by lia|].
  intros i r Hi. pose proof (lookup_lt_Some _ _ _ Hi). eexists _, _. split; [apply Hs; lia|]. split; [apply Hs; lia|].
  rewrite (take_S_r _ _ _ Hi), concat_app, app_length. cbn [concat]. rewrite app_nil_r. split; [lia|].
  replace (length (concat (take i rs)) + length r - length (concat (take i rs))) with (length r) by lia.
  apply slice_pointwise; [done|]. intros j Hj. assert (concat rs = concat (take i rs) ++ r ++ concat (drop (S i) rs)) as -> by (rewrite <- (take_drop_middle _ _ _ Hi) at 1; by rewrite concat_app).
  rewrite lookup_app_r by lia. rewrite lookup_app_l by lia. f_equal. lia.
Qed.
