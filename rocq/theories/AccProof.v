(** Lemmas about accumulation and the loop over cells and faces. *)
From Coq Require Import Reals Lra.
From stdpp Require Import sorting.
From Verif Require Import Base LoopModel LoopProof CsrSpec CsrProof TofSpec TofProof AccModel.
Local Open Scope R_scope.

(** ** Sums *)
Lemma rsum_app {A} (h : A → R) l m : rsum h (l ++ m) = rsum h l + rsum h m.
Proof. induction l as [|x l IH]; simpl; [lra|]. rewrite IH. lra. Qed.
Lemma rsum_plus {A} (h k : A → R) l : rsum (λ x, h x + k x) l = rsum h l + rsum k l.
Proof. induction l as [|x l IH]; simpl; [lra|]. rewrite IH. lra. Qed.
Lemma rsum_scale {A} (a : R) (h : A → R) l : rsum (λ x, a * h x) l = a * rsum h l.
Proof. induction l as [|x l IH]; simpl; [lra|]. rewrite IH. lra. Qed.
Lemma rsum_opp {A} (h : A → R) l : rsum (λ x, - h x) l = - rsum h l.
Proof. induction l as [|x l IH]; simpl; [lra|]. rewrite IH. lra. Qed.
Lemma rsum_zero {A} (h : A → R) l : (∀ x, x ∈ l → h x = 0) → rsum h l = 0.
Proof.
  induction l as [|x l IH]; intros H; simpl; [done|]. rewrite (H x) by left.
  rewrite IH; [lra|]. intros y Hy. apply H. by right.
Qed.
Lemma rsum_perm {A} (h : A → R) l m : l ≡ₚ m → rsum h l = rsum h m.
Proof. induction 1; simpl; lra. Qed.
Lemma rsum_map {A B} (h : B → R) (k : A → B) l : rsum h (map k l) = rsum (λ x, h (k x)) l.
Proof. induction l as [|x l IH]; simpl; [done|]. by rewrite IH. Qed.
Lemma rsum_concat {A} (h : A → R) ls : rsum h (concat ls) = rsum (λ l, rsum h l) ls.
Proof. induction ls as [|l ls IH]; simpl; [done|]. by rewrite rsum_app, IH. Qed.
Lemma rsum_filter {A} (P : A → Prop) `{∀ x, Decision (P x)} (h : A → R) l :
  rsum h (filter P l) = rsum (λ x, if decide (P x) then h x else 0) l.
Proof.
  induction l as [|x l IH]; [done|]. rewrite filter_cons. simpl.
  destruct (decide (P x)); simpl; rewrite IH; lra.
Qed.
(** A sum in which only one index counts. *)
Lemma rsum_single {A} `{EqDecision A} (h : A → R) (a : A) l : NoDup l → a ∈ l →
  rsum (λ x, if decide (x = a) then h x else 0) l = h a.
Proof.
  induction l as [|x l IH]; intros Hn Ha; [by apply elem_of_nil in Ha|].
  apply NoDup_cons in Hn as [Hx Hn]. simpl. apply elem_of_cons in Ha as [->|Ha].
  - rewrite decide_True by done. rewrite rsum_zero; [lra|]. intros y Hy.
    rewrite decide_False; [done|]. intros ->. done.
  - rewrite decide_False by (intros ->; done). rewrite (IH Hn Ha). lra.
Qed.
Lemma rsum_seq_list (l : list R) : rsum (λ x, x) l = rsum (λ i, default 0 (l !! i)) (seq 0 (length l)).
Proof.
  induction l as [|x l IH]; [done|]. cbn [length seq rsum]. rewrite IH. f_equal.
  rewrite <- fmap_S_seq. change (S <$> seq 0 (length l)) with (map S (seq 0 (length l))).
  rewrite rsum_map. done.
Qed.
Lemma rsum_le {A} (h k : A → R) l : (∀ x, x ∈ l → h x <= k x) → rsum h l <= rsum k l.
Proof.
  induction l as [|x l IH]; intros H; simpl; [lra|]. pose proof (H x ltac:(left)).
  assert (rsum h l <= rsum k l); [|lra]. apply IH. intros y Hy. apply H. by right.
Qed.

(** ** A loop over a list *)
Fixpoint run {A S} (f : A → S → option S) (l : list A) (s : S) : option S :=
  match l with [] => Some s | a :: l => s ← f a s; run f l s end.
Lemma run_app {A S} (f : A → S → option S) l m s : run f (l ++ m) s = (s ← run f l s; run f m s).
Proof.
  revert s. induction l as [|a l IH]; intros s; simpl; [done|].
  destruct (f a s); simpl; [apply IH|done].
Qed.
Lemma run_ext {A S} (f h : A → S → option S) l s :
  (∀ a s, a ∈ l → f a s = h a s) → run f l s = run h l s.
Proof.
  revert s. induction l as [|a l IH]; intros s H; [done|]. simpl. rewrite (H a) by left.
  destruct (h a s); [|done]. simpl. apply IH. intros b t Hb. apply H. by right.
Qed.
Lemma run_map {A B S} (f : B → S → option S) (k : A → B) l s :
  run f (map k l) s = run (λ a, f (k a)) l s.
Proof.
  revert s. induction l as [|a l IH]; intros s; simpl; [done|].
  destruct (f (k a) s); simpl; [apply IH|done].
Qed.
Lemma for_loop_run {S} n lo (f : nat → S → option S) s : for_loop n lo f s = run f (seq lo n) s.
Proof.
  revert lo s. induction n as [|n IH]; intros lo s; simpl; [done|].
  destruct (f lo s); simpl; [apply IH|done].
Qed.
Lemma run_concat {A B S} (f : A → S → option S) (k : B → list A) l s :
  run f (concat (map k l)) s = run (λ b, run f (k b)) l s.
Proof.
  revert s. induction l as [|b l IH]; intros s; [done|]. simpl. rewrite run_app.
  destruct (run f (k b) s); simpl; [apply IH|done].
Qed.
Lemma run_inv {A S} (P : S → Prop) (f : A → S → option S) l s :
  (∀ a s, a ∈ l → P s → ∃ s', f a s = Some s' ∧ P s') → P s → ∃ s', run f l s = Some s' ∧ P s'.
Proof.
  revert s. induction l as [|a l IH]; intros s H Hs; [by exists s|].
  destruct (H a s ltac:(left) Hs) as (t & E & Ht). simpl. rewrite E. simpl. apply IH; [|done].
  intros b u Hb. apply H. by right.
Qed.

(** ** Accumulation *)
Fixpoint accs (l : list R) (kvs : list (nat * R)) : option (list R) :=
  match kvs with [] => Some l | kv :: kvs => l ← addto l kv.1 kv.2; accs l kvs end.
Definition tally (kvs : list (nat * R)) (i : nat) : R :=
  rsum (λ kv, if decide (kv.1 = i) then kv.2 else 0) kvs.
Lemma tally_app l m i : tally (l ++ m) i = tally l i + tally m i.
Proof. apply rsum_app. Qed.
Lemma tally_cons k v l i : tally ((k, v) :: l) i = (if decide (k = i) then v else 0) + tally l i.
Proof. done. Qed.
Lemma tally_nil i : tally [] i = 0.
Proof. done. Qed.

Lemma addto_Some l k v x : l !! k = Some x → addto l k v = Some (<[k:=x + v]> l).
Proof. intros E. unfold addto. rewrite E. cbn [mbind option_bind]. apply upd_Some. by eapply lookup_lt_Some. Qed.
Lemma addto_inv l k v l' : addto l k v = Some l' → ∃ x, l !! k = Some x ∧ l' = <[k:=x + v]> l.
Proof.
  unfold addto. destruct (l !! k) as [x|] eqn:E; [|done]. cbn [mbind option_bind]. intros H.
  apply upd_inv in H as [_ ->]. eauto.
Qed.
Lemma addto_lookup l k v l' i : addto l k v = Some l' →
  length l' = length l ∧ l' !! i = (λ x, x + (if decide (k = i) then v else 0)) <$> l !! i.
Proof.
  intros (x & E & ->)%addto_inv. split; [by rewrite insert_length|].
  destruct (decide (k = i)) as [->|Hn].
  - rewrite E. rewrite list_lookup_insert by (by eapply lookup_lt_Some). done.
  - rewrite list_lookup_insert_ne by done. destruct (l !! i) as [y|]; [|done].
    cbn [fmap option_fmap option_map]. f_equal. lra.
Qed.
Lemma accs_app l a b : accs l (a ++ b) = (l ← accs l a; accs l b).
Proof.
  revert l. induction a as [|kv a IH]; intros l; simpl; [done|].
  destruct (addto l kv.1 kv.2); simpl; [apply IH|done].
Qed.
Lemma accs_inv l kvs l' : accs l kvs = Some l' →
  length l' = length l ∧ ∀ i, l' !! i = (λ x, x + tally kvs i) <$> l !! i.
Proof.
  revert l. induction kvs as [|[k v] kvs IH]; intros l; simpl.
  - intros [= ->]. split; [done|]. intros i. destruct (l' !! i) as [y|]; [|done].
    cbn [fmap option_fmap option_map]. f_equal. unfold tally. simpl. lra.
  - destruct (addto l k v) as [l1|] eqn:E; [|done]. cbn [mbind option_bind]. intros H.
    apply IH in H as [H1 H2]. split.
    + rewrite H1. by apply (addto_lookup _ _ _ _ 0%nat) in E as [? _].
    + intros i. rewrite H2. apply (addto_lookup _ _ _ _ i) in E as [_ ->].
      destruct (l !! i) as [y|]; [|done]. cbn [fmap option_fmap option_map]. f_equal.
      rewrite tally_cons. lra.
Qed.
Lemma accs_ok l kvs : (∀ k v, (k, v) ∈ kvs → (k < length l)%nat) → ∃ l', accs l kvs = Some l'.
Proof.
  revert l. induction kvs as [|[k v] kvs IH]; intros l H; simpl; [by eexists|].
  destruct (lookup_lt_is_Some_2 l k) as [x E]; [eapply H; left|].
  rewrite (addto_Some _ _ _ _ E). cbn [mbind option_bind]. apply IH. intros k' v' Hk.
  rewrite insert_length. eapply H. by right.
Qed.
(** The total changes by the sum of what is added. *)
Lemma accs_total l kvs l' : accs l kvs = Some l' → rsum (λ x, x) l' = rsum (λ x, x) l + rsum snd kvs.
Proof.
  revert l. induction kvs as [|[k v] kvs IH]; intros l; simpl.
  - intros [= ->]. lra.
  - destruct (addto l k v) as [l1|] eqn:E; [|done]. cbn [mbind option_bind]. intros H.
    rewrite (IH _ H). apply addto_inv in E as (x & E & ->).
    assert (rsum (λ x, x) (<[k:=x + v]> l) = rsum (λ x, x) l + v); [|lra]. clear -E.
    revert k E. induction l as [|y l IH]; intros [|k] E; simpl in *; try done.
    + injection E as ->. lra.
    + rewrite (IH _ E). lra.
Qed.
(** A loop each of whose steps is one or more accumulations. *)
Lemma run_accs {A} (f : A → list R → option (list R)) (kv : A → list (nat * R)) l s :
  (∀ a s, a ∈ l → f a s = accs s (kv a)) → run f l s = accs s (concat (map kv l)).
Proof.
  revert s. induction l as [|a l IH]; intros s H; [done|]. simpl. rewrite accs_app, (H a) by left.
  destruct (accs s (kv a)); [|done]. simpl. apply IH. intros b t Hb. apply H. by right.
Qed.
Lemma tally_concat {A} (kv : A → list (nat * R)) l i :
  tally (concat (map kv l)) i = rsum (λ a, tally (kv a) i) l.
Proof. unfold tally. rewrite rsum_concat, rsum_map. done. Qed.

(** ** The loop over cells and faces *)
(** The pairs (cell, position) in the order in which the loop meets them. *)
Fixpoint halves (c i : nat) (rows : list (list nat)) : list (nat * nat) :=
  match rows with
  | [] => []
  | r :: rows => map (pair c) (seq i (length r)) ++ halves (S c) (i + length r) rows
  end.
Lemma csr_loop_gen {S} (body : nat → nat → S → option S) rows c i pos s :
  (∀ k, (k <= length rows)%nat → pos !! (c + k)%nat = starts i rows !! k) →
  for_loop (length rows) c (csr_step pos body) (i, s)
  = (λ t, ((i + length (concat rows))%nat, t)) <$> run (λ ci, body ci.1 ci.2) (halves c i rows) s.
Proof.
  revert c i s. induction rows as [|r rows IH]; intros c i s H.
  - simpl. do 2 f_equal. lia.
  - cbn [length for_loop halves]. unfold csr_step at 2. cbn [fst snd].
    pose proof (H 1%nat ltac:(simpl; lia)) as H1. rewrite Nat.add_1_r in H1. rewrite H1.
    assert (E1 : starts i (r :: rows) !! 1%nat = Some (i + length r)%nat) by (simpl; by destruct rows).
    rewrite E1. cbn [mbind option_bind]. rewrite run_app, run_map, for_loop_run.
    replace (i + length r - i)%nat with (length r) by lia. cbn [fst snd].
    destruct (run (body c) (seq i (length r)) s) as [t|]; cbn [mbind option_bind]; [|done].
    rewrite Nat.max_r by lia. rewrite IH.
    + cbn [concat]. rewrite app_length, Nat.add_assoc. done.
    + intros k Hk. rewrite Nat.add_succ_comm. rewrite H by (simpl; lia).
      cbn [starts]. done.
Qed.
Lemma csr_loop_run {S} (body : nat → nat → S → option S) rows pos ja s : holds_rows pos ja rows →
  csr_loop (length rows) pos body s = run (λ ci, body ci.1 ci.2) (halves 0 0 rows) s.
Proof.
  intros H. unfold csr_loop. apply holds_rows_unique in H as [-> _]. rewrite csr_loop_gen.
  - destruct (run _ _ _); done.
  - done.
Qed.
(** Which pairs these are. *)
Lemma halves_elem rows c0 i0 c i : (c, i) ∈ halves c0 i0 rows ↔
  ∃ k r b, c = (c0 + k)%nat ∧ rows !! k = Some r ∧ starts i0 rows !! k = Some b ∧ (b <= i < b + length r)%nat.
Proof.
  revert c0 i0. induction rows as [|r rows IH]; intros c0 i0; cbn [halves].
  - rewrite elem_of_nil. split; [done|]. intros (k & r & b & _ & ? & _). done.
  - rewrite elem_of_app. rewrite IH. split.
    + intros [H|(k & r' & b & -> & Hr & Hb & Hi)].
      * apply elem_of_list_In, in_map_iff in H as (j & [= -> ->] & Hj). apply in_seq in Hj.
        exists 0%nat, r, i0. split_and!; try lia; done.
      * exists (S k), r', b. split_and!; try lia; done.
    + intros (k & r' & b & -> & Hr & Hb & Hi). destruct k as [|k].
      * left. simpl in Hr, Hb. simplify_eq. apply elem_of_list_In, in_map_iff. exists i.
        split; [f_equal; lia|]. apply in_seq. lia.
      * right. exists k, r', b. split_and!; try lia; done.
Qed.
Lemma halves_snd rows c0 i0 : (halves c0 i0 rows).*2 = seq i0 (length (concat rows)).
Proof.
  revert c0 i0. induction rows as [|r rows IH]; intros c0 i0; [done|]. cbn [halves concat].
  rewrite fmap_app, app_length, seq_app, IH. f_equal. clear.
  generalize i0 as j. induction (length r) as [|n IH]; intros j; [done|]. simpl. f_equal. apply IH.
Qed.
Lemma halves_nodup rows c0 i0 : NoDup (halves c0 i0 rows).
Proof. apply (NoDup_fmap_1 snd). rewrite halves_snd. apply NoDup_seq. Qed.

(** ** Lists with two known elements *)
Lemma nodup_two {A} (l : list A) p q : NoDup l → p ≠ q → (∀ x, x ∈ l ↔ x = p ∨ x = q) → l ≡ₚ [p; q].
Proof.
  intros Hn Hpq H. apply NoDup_Permutation; [done|..].
  - apply NoDup_cons. split; [|apply NoDup_singleton]. intros ->%elem_of_list_singleton. done.
  - intros x. rewrite H, !elem_of_cons, elem_of_nil. naive_solver.
Qed.
Lemma nodup_one {A} (l : list A) p : NoDup l → (∀ x, x ∈ l ↔ x = p) → l ≡ₚ [p].
Proof.
  intros Hn H. apply NoDup_Permutation; [done|apply NoDup_singleton|].
  intros x. rewrite H, elem_of_list_singleton. done.
Qed.
(** The part of a sum that counts. *)
Lemma rsum_two {A} (P : A → Prop) `{∀ x, Decision (P x)} (h : A → R) l p q : NoDup l → p ≠ q →
  (∀ x, x ∈ l ∧ P x ↔ x = p ∨ x = q) → rsum (λ x, if decide (P x) then h x else 0) l = h p + h q.
Proof.
  intros Hn Hpq Hx. rewrite <- rsum_filter. rewrite (rsum_perm _ _ [p; q]); [simpl; lra|].
  apply nodup_two; [by apply NoDup_filter|done|]. intros x. rewrite elem_of_list_filter. rewrite <- Hx. naive_solver.
Qed.
Lemma rsum_one {A} (P : A → Prop) `{∀ x, Decision (P x)} (h : A → R) l p : NoDup l →
  (∀ x, x ∈ l ∧ P x ↔ x = p) → rsum (λ x, if decide (P x) then h x else 0) l = h p.
Proof.
  intros Hn Hx. rewrite <- rsum_filter. rewrite (rsum_perm _ _ [p]); [simpl; lra|].
  apply nodup_one; [by apply NoDup_filter|]. intros x. rewrite elem_of_list_filter. rewrite <- Hx. naive_solver.
Qed.

(** ** Loops that write *)
(** Each step writes one element of its own. *)
Lemma run_upd {A B} (f : A → list B → option (list B)) (k : A → nat) (v : A → B) n l s :
  (∀ a s, a ∈ l → length s = n → f a s = upd s (k a) (v a)) → (∀ a, a ∈ l → (k a < n)%nat) →
  NoDup (map k l) → length s = n →
  ∃ s', run f l s = Some s' ∧ length s' = n ∧ (∀ a, a ∈ l → s' !! k a = Some (v a)) ∧
    ∀ i, i ∉ map k l → s' !! i = s !! i.
Proof.
  revert s. induction l as [|a l IH]; intros s Hf Hk Hn Hs.
  - exists s. split_and!; try done. intros a Ha. by apply elem_of_nil in Ha.
  - cbn [map] in Hn. apply NoDup_cons in Hn as [Ha Hn]. simpl. rewrite Hf by (done || left).
    rewrite upd_Some by (rewrite Hs; apply Hk; left). cbn [mbind option_bind].
    destruct (IH (<[k a:=v a]> s)) as (s' & E & Hl & Hv & Hr).
    + intros b t Hb. apply Hf. by right.
    + intros b Hb. apply Hk. by right.
    + done.
    + by rewrite insert_length.
    + exists s'. split_and!; try done.
      * intros b [->|Hb]%elem_of_cons; [|by apply Hv]. rewrite Hr by done.
        apply list_lookup_insert. rewrite Hs. apply Hk. left.
      * intros i Hi. rewrite Hr by (intros Hx; apply Hi; by right).
        apply list_lookup_insert_ne. intros <-. apply Hi. left.
Qed.
(** Each element is replaced by a function of itself. *)
Lemma for_loop_each {B} (F : nat → B → option B) (f : nat → list B → option (list B)) n s :
  (∀ i s, (i < n)%nat → length s = n → f i s = (x ← s !! i; v ← F i x; upd s i v)) → length s = n →
  (∀ i x, s !! i = Some x → is_Some (F i x)) →
  ∃ s', for_loop n 0 f s = Some s' ∧ length s' = n ∧ ∀ i x, s !! i = Some x → s' !! i = F i x.
Proof.
  intros Hf Hs HF.
  destruct (for_loop_inv (λ k s', length s' = n ∧ (∀ i x, s !! i = Some x → (i < k)%nat → s' !! i = F i x) ∧
    ∀ i, (k <= i)%nat → s' !! i = s !! i) n 0 f s) as (s' & E & Hl & Hv & _).
  - split_and!; try done. intros; lia.
  - intros i t Hi (Hl & Hv & Hr). rewrite Hf by (done || lia). rewrite Hr by lia.
    destruct (lookup_lt_is_Some_2 s i) as [x Ex]; [lia|]. rewrite Ex. cbn [mbind option_bind].
    destruct (HF i x Ex) as [v Ev]. rewrite Ev. cbn [mbind option_bind]. rewrite upd_Some by lia.
    eexists. split; [done|]. split_and!.
    + by rewrite insert_length.
    + intros j y Hj Hji. destruct (decide (j = i)) as [->|Hn].
      * rewrite list_lookup_insert by lia. rewrite Ex in Hj. injection Hj as <-. done.
      * rewrite list_lookup_insert_ne by done. apply Hv; [done|lia].
    + intros j Hj. rewrite list_lookup_insert_ne by lia. apply Hr. lia.
  - exists s'. split_and!; try done. intros i x Hi. apply Hv; [done|].
    apply lookup_lt_Some in Hi. lia.
Qed.
