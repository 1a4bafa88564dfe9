(** C60: the map from cells to faces is the inverse of the map from faces to
    cells. *)
From stdpp Require Import sorting.
From Verif Require Import Base LoopModel LoopProof CsrModel CsrSpec CsrProof GridModel GridSpec TopoModel.
Unset Default Proof Using.

Section topology.
Variables (fc : list Z) (tag : list nat) (nc nf : nat).
Hypothesis Hfc : 2 * nf ≤ length fc.
Hypothesis Htag : nf ≤ length tag.
Hypothesis Hrange : ∀ f a b, f < nf → fc !! (2 * f) = Some a → fc !! (2 * f + 1) = Some b → (-1 ≤ a < Z.of_nat nc ∧ -1 ≤ b < Z.of_nat nc ∧ (a = b → a = -1))%Z.

Definition c1 (f : nat) : Z := default (-1)%Z (fc !! (2 * f)).
Definition c2 (f : nat) : Z := default (-1)%Z (fc !! (2 * f + 1)).
Definition tg (f : nat) : nat := default 0 (tag !! f).
(** The half faces in the order of the loops, with a value each. *)
Definition halves (h : nat → bool → nat) (f : nat) : list (nat * nat) :=
  (if decide (0 ≤ c1 f)%Z then [(Z.to_nat (c1 f), h f true)] else []) ++ (if decide (0 ≤ c2 f)%Z then [(Z.to_nat (c2 f), h f false)] else []).
Definition all (h : nat → bool → nat) : list (nat * nat) := concat (halves h <$> seq 0 nf).

Lemma cells f : f < nf → fc !! (2 * f) = Some (c1 f) ∧ fc !! (2 * f + 1) = Some (c2 f).
Proof using Hfc.
  clear - Hfc. intros Hf. destruct (lookup_lt_is_Some_2 fc (2 * f)) as [a Ha]; [lia|]. destruct (lookup_lt_is_Some_2 fc (2 * f + 1)) as [b Hb]; [lia|]. unfold c1, c2. by rewrite Ha, Hb.
Qed.
Lemma count_all_app l1 l2 ia : count_all ia (l1 ++ l2) = (ia ← count_all ia l1; count_all ia l2).
Proof. revert ia. induction l1 as [|k l1 IH]; intros ia; [done|]. cbn [app count_all]. destruct (count_one ia k); [|done]. cbn [mbind option_bind]. apply IH. Qed.
Lemma push_all_app l1 l2 s : push_all s (l1 ++ l2) = (s ← push_all s l1; push_all s l2).
Proof. revert s. induction l1 as [|k l1 IH]; intros s; [done|]. cbn [app push_all]. destruct (push_one s k); [|done]. cbn [mbind option_bind]. apply IH. Qed.
Lemma loop_lists {S} (step : S → list (nat * nat) → option S) (body : nat → S → option S) h s n lo :
  (∀ s, step s [] = Some s) → (∀ l1 l2 s, step s (l1 ++ l2) = (s ← step s l1; step s l2)) → (∀ f s, lo ≤ f < lo + n → body f s = step s (h f)) →
  for_loop n lo body s = step s (concat (h <$> seq lo n)).
Proof using.
  clear. intros H0 Happ. revert lo s. induction n as [|n IH]; intros lo s Hb; [by rewrite H0|]. cbn [for_loop seq fmap list_fmap concat]. rewrite Happ, Hb by lia.
  destruct (step s (h lo)) as [s'|]; [|done]. cbn [mbind option_bind]. rewrite IH; [done|]. intros f s0 Hf. apply Hb. lia.
Qed.
Lemma count_ok h pos : for_loop nf 0 (count_face fc) pos = count_all pos (all h).*1.
Proof using Hfc.
  clear Htag Hrange. rewrite (loop_lists (λ s l, count_all s l.*1) _ (halves h) pos nf 0); [done|done| |].
  - intros l1 l2 s. by rewrite fmap_app, count_all_app.
  - intros f s Hf. destruct (cells f) as [E1 E2]; [lia|]. unfold count_face, halves. rewrite Nat.add_0_r. rewrite E1, E2. cbn [mbind option_bind].
    destruct (decide (0 ≤ c1 f)%Z); destruct (decide (0 ≤ c2 f)%Z); cbn [app fmap list_fmap fst count_all mbind option_bind]; try done; try (by destruct (count_one s _)).
    destruct (count_one s _) as [s1|]; [|done]. cbn [mbind option_bind]. by destruct (count_one s1 _).
Qed.

(** Two arrays are filled at the same positions. *)
Fixpoint push2 (s : list nat * list nat * list nat) (l : list (nat * (nat * nat))) : option (list nat * list nat * list nat) :=
  match l with [] => Some s | x :: l => s ← push_half x.1 x.2.1 x.2.2 s; push2 s l end.
Lemma push2_app l1 l2 s : push2 s (l1 ++ l2) = (s ← push2 s l1; push2 s l2).
Proof. revert s. induction l1 as [|k l1 IH]; intros s; [done|]. cbn [app push2]. destruct (push_half _ _ _ s); [|done]. cbn [mbind option_bind]. apply IH. Qed.
Lemma push2_ok l : ∀ pos fa ta pos' fa' ta',
  push_all (pos, fa) ((λ x, (x.1, x.2.1)) <$> l) = Some (pos', fa') → push_all (pos, ta) ((λ x, (x.1, x.2.2)) <$> l) = Some (pos', ta') →
  push2 (pos, fa, ta) l = Some (pos', fa', ta').
Proof.
  induction l as [|[k [v w]] l IH]; intros pos fa ta pos' fa' ta' E1 E2; cbn [fmap list_fmap push_all fst snd] in E1, E2.
  - simplify_eq. done.
  - cbn [push2 fst snd]. unfold push_half. unfold push_one in E1, E2. cbn [fst snd] in E1, E2. destruct (pos !! S k) as [p|]; [|done]. cbn [mbind option_bind] in *.
    destruct (upd fa p v) as [fa1|]; [|done]. destruct (upd ta p w) as [ta1|]; [|done]. cbn [mbind option_bind] in *. destruct (upd pos (S k) (S p)) as [pos1|]; [|done]. cbn [mbind option_bind] in *. by apply IH.
Qed.
Definition hv (f : nat) (_ : bool) : nat := f.
Definition ht (f : nat) (b : bool) : nat := 2 * tg f + (if b then 1 else 0).
Definition both (f : nat) : list (nat * (nat * nat)) :=
  (if decide (0 ≤ c1 f)%Z then [(Z.to_nat (c1 f), (f, 2 * tg f + 1))] else []) ++ (if decide (0 ≤ c2 f)%Z then [(Z.to_nat (c2 f), (f, 2 * tg f + 0))] else []).
Lemma push_ok n lo s : lo + n ≤ nf → for_loop n lo (push_face fc tag) s = push2 s (concat (both <$> seq lo n)).
Proof using Hfc Htag.
  clear Hrange. revert lo s. induction n as [|n IH]; intros lo s Hn; [done|]. cbn [for_loop seq fmap list_fmap concat]. rewrite push2_app.
  assert (push_face fc tag lo s = push2 s (both lo)) as ->.
  { destruct (cells lo) as [E1 E2]; [lia|]. destruct (lookup_lt_is_Some_2 tag lo) as [t Ht]; [lia|]. unfold push_face, both. assert (tg lo = t) as -> by (unfold tg; by rewrite Ht). rewrite (Nat.add_0_r (2 * lo)), Ht, E1, E2. cbn [mbind option_bind].
    destruct (decide (0 ≤ c1 lo)%Z); destruct (decide (0 ≤ c2 lo)%Z); cbn [app push2 fst snd mbind option_bind]; try done; try (by destruct (push_half _ _ _ s)).
    destruct (push_half _ _ _ s) as [s1|]; [|done]. cbn [mbind option_bind]. by destruct (push_half _ _ _ s1). }
  destruct (push2 s (both lo)) as [s1|]; [|done]. cbn [mbind option_bind]. apply IH. lia.
Qed.
Lemma both_all : (λ x, (x.1, x.2.1)) <$> concat (both <$> seq 0 nf) = all hv ∧ (λ x, (x.1, x.2.2)) <$> concat (both <$> seq 0 nf) = all ht.
Proof using.
  clear. unfold all. induction (seq 0 nf) as [|f l [IH1 IH2]]; [done|]. cbn [fmap list_fmap concat]. rewrite !fmap_app. split; (f_equal; [|done]); unfold both, halves, hv, ht;
  destruct (decide (0 ≤ c1 f)%Z); destruct (decide (0 ≤ c2 f)%Z); done.
Qed.
Lemma all_lt h : Forall (λ kv, kv.1 < nc) (all h).
Proof using Hfc Hrange.
  clear Htag. apply Forall_forall. intros [k v] Hk. apply elem_of_list_In, in_concat in Hk as (l & Hl & Hk). apply elem_of_list_In, elem_of_list_fmap in Hl as (f & -> & Hf). apply elem_of_list_In in Hk. apply elem_of_seq in Hf.
  destruct (cells f) as [E1 E2]; [lia|]. destruct (Hrange f _ _ ltac:(lia) E1 E2) as (R1 & R2 & _). unfold halves in Hk. apply elem_of_app in Hk as [Hk|Hk]; case_decide; try (by apply elem_of_nil in Hk);
  apply elem_of_list_singleton in Hk; simplify_eq; cbn [fst]; lia.
Qed.
(** The rows: the faces of cell [c] in ascending order, and their tags. *)
Definition frow (c : nat) : list nat := filter (λ f, c1 f = Z.of_nat c ∨ c2 f = Z.of_nat c) (seq 0 nf).
Lemma row_all h c : row_of (all h) c = (λ f, h f (bool_decide (c1 f = Z.of_nat c))) <$> frow c.
Proof using Hfc Hrange.
  clear Htag. unfold all, frow. assert (Hs : ∀ f, f ∈ seq 0 nf → f < nf) by (intros f Hf; apply elem_of_seq in Hf; lia). revert Hs. induction (seq 0 nf) as [|f l IH]; intros Hs; [done|].
  cbn [fmap list_fmap concat]. rewrite row_of_app, IH by (intros f' Hf'; apply Hs; by right). rewrite filter_cons.
  destruct (cells f) as [E1 E2]; [apply Hs; by left|]. destruct (Hrange f _ _ ltac:(apply Hs; by left) E1 E2) as (R1 & R2 & R3). clear E1 E2 IH Hs. unfold halves. rewrite row_of_app.
  assert (Hone : ∀ a v, (-1 ≤ a)%Z → row_of (if decide (0 ≤ a)%Z then [(Z.to_nat a, v)] else []) c = if decide (a = Z.of_nat c) then [v] else []).
  { intros a v Ha. destruct (decide (0 ≤ a)%Z); [|by rewrite decide_False by lia]. rewrite row_of_single. destruct (decide (a = Z.of_nat c)) as [->|Hn]; [by rewrite decide_True by lia|]. by rewrite decide_False by lia. }
  rewrite !Hone by lia. destruct (decide (c1 f = Z.of_nat c)) as [Ea|Ea].
  - rewrite decide_False by (intros Eb; rewrite Ea, Eb in R3; specialize (R3 eq_refl); lia). rewrite decide_True by (by left). cbn [fmap list_fmap app]. by rewrite bool_decide_true.
  - destruct (decide (c2 f = Z.of_nat c)) as [Eb|Eb].
    + rewrite decide_True by (by right). cbn [fmap list_fmap app]. by rewrite bool_decide_false.
    + rewrite decide_False by (intros [?|?]; done). done.
Qed.

Notation cf := (frow <$> seq 0 nc).
Lemma rows_all h : rows_of nc (all h) = (λ c, (λ f, h f (bool_decide (c1 f = Z.of_nat c))) <$> frow c) <$> seq 0 nc.
Proof using Hfc Hrange. clear Htag. unfold rows_of. apply list_fmap_ext. intros i c _. apply row_all. Qed.
Lemma rows_faces : rows_of nc (all hv) = cf.
Proof using Hfc Hrange. clear Htag. rewrite rows_all. apply list_fmap_ext. intros i c _. unfold hv. apply list_fmap_id. Qed.

(** C60: unless memory runs out, the rows of cell_faces are the faces of the
    cells in ascending order, and cell_facetag has for each of them twice the tag
    of the face, plus 1 if the cell is the first of the face. *)
Theorem C60_topology junk o : ∃ r o', fill_cell_topology fc tag junk nc nf o = Some (r, o') ∧ (r = None → false ∈ o) ∧ (∀ x, x ∈ o' → x ∈ o) ∧
  ∀ pos faces tags, r = Some (pos, faces, tags) →
    grid_ok (UGrid nc nf pos faces (take (2 * nf) fc)) cf ∧ length tags = length faces ∧
    (∀ c row, cf !! c = Some row → Sorted lt row) ∧
    ∀ c b e i f t, pos !! c = Some b → pos !! S c = Some e → b ≤ i < e → faces !! i = Some f → tag !! f = Some t →
      tags !! i = Some (if decide (fc !! (2 * f) = Some (Z.of_nat c)) then 2 * t + 1 else 2 * t).
Proof using Hfc Htag Hrange.
  unfold fill_cell_topology. destruct (next_alloc o) as [ok o1] eqn:Eo.
  assert (Hf : ∀ o b o', next_alloc o = (b, o') → (b = false → false ∈ o) ∧ ∀ x, x ∈ o' → x ∈ o).
  { intros [|x l] b o' H; cbn in H; simplify_eq; [done|]. split; [intros ->; by left|]. intros y Hy. by right. }
  destruct (Hf _ _ _ Eo) as [F1 G1]. destruct ok; [|eexists _, _; split; [done|]; split; [by intros _; apply F1|]; split; [done|done]].
  assert (E0 : for_loop (nc + 1) 0 (λ c pos, upd pos c 0) (replicate (nc + 1) junk) = Some (replicate (nc + 1) 0)).
  { destruct (for_loop_inv (λ k l, l = replicate k 0 ++ replicate (nc + 1 - k) junk) (nc + 1) 0 (λ c pos, upd pos c 0) (replicate (nc + 1) junk)) as (l & E & Hl).
    - by rewrite Nat.sub_0_r.
    - intros k l Hk ->. rewrite upd_Some by (rewrite app_length, !replicate_length; lia). eexists. split; [done|].
      rewrite insert_app_r_alt by (rewrite replicate_length; lia). rewrite replicate_length, Nat.sub_diag. replace (nc + 1 - k) with (S (nc + 1 - (k + 1))) by lia. cbn [replicate insert list_insert].
      rewrite replicate_add, <- app_assoc. done.
    - rewrite E, Hl. f_equal. cbn [Nat.add]. rewrite Nat.sub_diag. cbn [replicate]. by rewrite app_nil_r. }
  rewrite E0. cbn [mbind option_bind]. rewrite (count_ok hv).
  assert (Hk : Forall (λ k, k < nc) (all hv).*1) by (apply Forall_fmap; eapply Forall_impl; [apply all_lt|done]).
  destruct (count_scan nc (all hv).*1 (all hv) Hk ltac:(done)) as (ia & Ec & Hia). rewrite Ec. cbn [mbind option_bind]. rewrite Hia.
  set (cnts := (λ i, length (row_of (all hv) i)) <$> seq 0 nc). assert (Hlc : length cnts = nc) by (unfold cnts; by rewrite fmap_length, seq_length).
  pose proof (scan_loop_correct cnts) as SC. rewrite Hlc in SC. rewrite SC. cbn [mbind option_bind]. cbn [lookup list_lookup]. cbn [mbind option_bind]. unfold upd at 1. rewrite decide_True by (cbn; lia). cbn [mbind option_bind insert list_insert].
  assert (Hsum : sum_list cnts = length (all hv)) by (apply sum_counts, all_lt). rewrite Hsum.
  destruct (next_alloc o1) as [ok1 o2] eqn:Eo1. destruct (next_alloc o2) as [ok2 o3] eqn:Eo2. destruct (Hf _ _ _ Eo1) as [F2 G2]. destruct (Hf _ _ _ Eo2) as [F3 G3].
  destruct (ok1 && ok2) eqn:Eok.
  2:{ eexists _, _. split; [done|]. split; [|split; [intros x Hx; by apply G1, G2, G3|done]]. intros _. apply andb_false_iff in Eok as [->| ->]; [apply G1, F2; done|apply G1, G2, F3; done]. }
  rewrite (push_ok nf 0) by lia. destruct both_all as [B1 B2].
  assert (Hsame : length (all ht) = length (all hv)) by (by rewrite <- B1, <- B2, !fmap_length).
  assert (Hcnt : (λ i, length (row_of (all ht) i)) <$> seq 0 nc = cnts).
  { unfold cnts. apply list_fmap_ext. intros i c _. by rewrite !row_all, !fmap_length. }
  pose proof (push_all_correct nc (all hv) (all_lt hv) 0 (replicate (length (all hv)) junk) ltac:(by rewrite replicate_length)) as P1.
  pose proof (push_all_correct nc (all ht) (all_lt ht) 0 (replicate (length (all hv)) junk) ltac:(by rewrite replicate_length)) as P2.
  fold cnts in P1. rewrite Hcnt in P2.
  assert (Est : starts 0 (rows_of nc (all ht)) = starts 0 (rows_of nc (all hv))).
  { apply starts_same_lengths. rewrite !rows_all, <- !list_fmap_compose. apply list_fmap_ext. intros i c _. cbn. by rewrite !fmap_length. }
  rewrite Est in P2. erewrite push2_ok; [|rewrite B1; exact P1|rewrite B2; exact P2]. cbn [mbind option_bind].
  eexists _, _. split; [done|]. split; [done|]. split; [intros x Hx; by apply G1, G2, G3|]. intros pos faces tags Hr. injection Hr as <- <- <-.
  assert (Es : 0 :: tail (starts 0 (rows_of nc (all hv))) = starts 0 (rows_of nc (all hv))) by (by destruct (rows_of nc (all hv))).
  rewrite Es. rewrite rows_faces in *.
  assert (Hlk : ∀ c row, cf !! c = Some row → c < nc ∧ row = frow c).
  { intros c row Hc. rewrite list_lookup_fmap in Hc. apply fmap_Some in Hc as (c' & Hc & ->). apply lookup_seq in Hc as [-> Hc]. done. }
  split; [split; cbn [u_nc u_nf u_facepos u_cellfaces u_facecells]|].
  - by rewrite fmap_length, seq_length.
  - apply starts_holds.
  - rewrite take_length. lia.
  - intros f a b [Ha Hb]. cbn [u_facecells] in Ha, Hb. assert (2 * f + 1 < 2 * nf) by (apply lookup_lt_Some in Hb; rewrite take_length in Hb; lia).
    rewrite lookup_take in Ha, Hb by lia. apply (Hrange f); [lia|done|done].
  - intros c row Hc. apply Hlk in Hc as [_ ->]. apply NoDup_filter, NoDup_seq.
  - intros c row f Hc. apply Hlk in Hc as [Hc ->]. unfold frow. rewrite elem_of_list_filter, elem_of_seq. unfold face_between. cbn [u_facecells]. split.
    + intros [H Hlt]. destruct (cells f) as [E1 E2]; [lia|]. exists (c1 f), (c2 f). rewrite !lookup_take by lia. done.
    + intros (a & b & [Ha Hb] & H). assert (2 * f + 1 < 2 * nf) by (apply lookup_lt_Some in Hb; rewrite take_length in Hb; lia). rewrite lookup_take in Ha, Hb by lia.
      destruct (cells f) as [E1 E2]; [lia|]. rewrite E1 in Ha. rewrite E2 in Hb. simplify_eq. split; [done|lia].
  - split; [|split].
    + rewrite rows_all. clear. induction (seq 0 nc) as [|c l IH]; [done|]. cbn [fmap list_fmap concat]. rewrite !app_length, fmap_length. f_equal. exact IH.
    + intros c row Hc. apply Hlk in Hc as [_ ->]. unfold frow. clear. generalize 0. induction nf as [|n IH]; intros k; cbn [seq]; [constructor|]. rewrite filter_cons. case_decide; [|apply IH].
      constructor; [apply IH|]. destruct (filter _ (seq (S k) n)) as [|x l] eqn:E; constructor. assert (x ∈ seq (S k) n) as Hx. { eapply elem_of_list_filter. rewrite E. left. } apply elem_of_seq in Hx. lia.
    + intros c b e i f t Hb He Hi Hf' Ht. assert (Hc : c < nc). { apply lookup_lt_Some in He. rewrite starts_length', fmap_length, seq_length in He. lia. }
      destruct (starts_rows 0 [] cf c (frow c) eq_refl) as (b' & S1 & S2 & S3 & _); [by rewrite list_lookup_fmap, lookup_seq_lt by lia|]. rewrite Hb in S1. rewrite He in S2. injection S1 as <-. injection S2 as ->. cbn [app] in S3.
      destruct (starts_rows 0 [] (rows_of nc (all ht)) c (row_of (all ht) c) eq_refl) as (b' & T1 & _ & T3 & _); [unfold rows_of; by rewrite list_lookup_fmap, lookup_seq_lt by lia|]. rewrite Est, Hb in T1. injection T1 as <-. cbn [app] in T3.
      rewrite row_all in T3. rewrite fmap_length in T3. replace i with (b + (i - b)) in * by lia. rewrite (slice_lookup _ _ _ _ (i - b) S3) in Hf' by lia. rewrite (slice_lookup _ _ _ _ (i - b) T3) by lia.
      rewrite list_lookup_fmap, Hf'. cbn [fmap option_fmap option_map]. f_equal. unfold ht, tg. rewrite Ht. cbn [default from_option]. unfold Datatypes.id.
      assert (Hfl : f < nf). { apply elem_of_list_lookup_2 in Hf'. unfold frow in Hf'. apply elem_of_list_filter in Hf' as [_ Hf']. apply elem_of_seq in Hf'. lia. }
      destruct (cells f Hfl) as [E1 _]. rewrite E1. destruct (decide (c1 f = Z.of_nat c)) as [->|Hn]; [rewrite bool_decide_true, decide_True by done; done|]. rewrite bool_decide_false by done. rewrite decide_False by congruence. lia.
Qed.
End topology.
Print Assumptions C60_topology.

(** Three cells in a row; the outer faces have -1 on one side. *)
Example C60_example : ∃ s, fill_cell_topology [-1; 0; 0; 1; 1; 2; 2; -1]%Z [0; 0; 0; 0] 7 3 4 [] = Some (Some s, []) ∧ s = ([0; 2; 4; 6], [0; 1; 1; 2; 2; 3], [0; 1; 0; 1; 0; 1]).
Proof. eexists. by split. Qed.
