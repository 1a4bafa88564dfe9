(** Lemmas about compressed row matrices under accumulation. *)
From Coq Require Import Reals Lra.
From stdpp Require Import sorting.
From Verif Require Import Base LoopModel LoopProof CsrSpec CsrModel CsrProof CsrProps GridModel GridSpec TableModel TofSpec TofProof
  AccModel AccProof HalfProof WellsModel IfsModel IfsSpec.
Local Open Scope R_scope.

(** Changes of a system: to the matrix and to the right hand side. *)
Inductive op := OA (i j : nat) (v : R) | OB (k : nat) (v : R).
Definition oa1 (i j : nat) (o : op) : R :=
  match o with OA i' j' v => if decide (i' = i ∧ j' = j) then v else 0 | OB _ _ => 0 end.
Definition ob1 (k : nat) (o : op) : R :=
  match o with OA _ _ _ => 0 | OB k' v => if decide (k' = k) then v else 0 end.
Definition oa (ops : list op) (i j : nat) : R := rsum (oa1 i j) ops.
Definition ob (ops : list op) (k : nat) : R := rsum (ob1 k) ops.

Section mat.
Context (bsearch : nat → list nat → option nat) (Hbs : bsearch_contract bsearch).
Context (A : csr) (ja : list nat) (rows : list (list nat)).
Context (Hja : a_ja A = Some ja) (Hh : holds_rows (a_ia A) ja rows)
  (Hsort : ∀ i r, rows !! i = Some r → Sorted le r).

Lemma pos_row i b e p : a_ia A !! i = Some b → a_ia A !! S i = Some e → (b <= p < e)%nat → (i, p) ∈ halves 0 0 rows.
Proof using Hh.
  intros Hb He Hp. destruct (holds_rows_unique _ _ _ Hh) as [E _]. rewrite E in Hb, He.
  destruct (rows !! i) as [r|] eqn:Er.
  - destruct (starts_rows 0 [] rows i r eq_refl Er) as (b' & Hb' & He' & _).
    rewrite Hb in Hb'. injection Hb' as <-. rewrite He in He'. injection He' as ->.
    apply halves_elem. exists i, r, b. done.
  - apply lookup_ge_None in Er. apply lookup_lt_Some in He. rewrite starts_length in He. lia.
Qed.
Lemma pos_unique i i' b e b' e' p :
  a_ia A !! i = Some b → a_ia A !! S i = Some e → (b <= p < e)%nat →
  a_ia A !! i' = Some b' → a_ia A !! S i' = Some e' → (b' <= p < e')%nat → i = i'.
Proof using Hh.
  intros H1 H2 H3 H4 H5 H6. pose proof (pos_row _ _ _ _ H1 H2 H3) as P. pose proof (pos_row _ _ _ _ H4 H5 H6) as Q.
  assert (NoDup ((halves 0 0 rows).*2)) as Hn by (rewrite halves_snd; apply NoDup_seq).
  apply elem_of_list_lookup in P as [k Hk]. apply elem_of_list_lookup in Q as [k' Hk'].
  assert (k = k') as ->.
  { eapply (NoDup_lookup _ k k' p Hn); rewrite list_lookup_fmap; [rewrite Hk|rewrite Hk']; done. }
  rewrite Hk in Hk'. by injection Hk' as ->.
Qed.
Lemma row_bounds i r : rows !! i = Some r → ∃ b e, a_ia A !! i = Some b ∧ a_ia A !! S i = Some e ∧ (b <= e)%nat ∧ (e <= length ja)%nat ∧
  slice ja b (e - b) = Some r.
Proof using Hh.
  intros Hr. destruct Hh as (Hl & H0 & He & Hrow). destruct (Hrow i r Hr) as (b & e & Eb & Ee & Hle & Hs).
  exists b, e. split_and!; try done. destruct (decide (e = b)) as [->|Hn].
  - destruct (holds_rows_unique _ _ _ Hh) as [E1 E2].
    pose proof (lookup_lt_Some _ _ _ Hr). rewrite E1 in Ee. rewrite starts_take in Ee by lia. injection Ee as <-.
    rewrite E2. rewrite <- (take_drop (S i) rows) at 2. rewrite concat_app, app_length. lia.
  - destruct (lookup_lt_is_Some_2 r (e - b - 1)) as [x Hx]; [rewrite (slice_length _ _ _ _ Hs); lia|].
    rewrite <- (slice_lookup _ _ _ _ _ Hs) in Hx by lia. apply lookup_lt_Some in Hx. lia.
Qed.

(** The position found for (i, j). *)
Lemma idx_pos i j r : rows !! i = Some r → j ∈ r → ∃ b e p, a_ia A !! i = Some b ∧ a_ia A !! S i = Some e ∧
  elm_index bsearch i j A = Some p ∧ (b <= p < e)%nat ∧ ja !! p = Some j ∧ (p < length ja)%nat.
Proof using Hbs Hja Hh Hsort.
  intros Hr Hj. destruct (C06_elm_index bsearch A ja rows i r j Hbs Hja Hh Hr (Hsort _ _ Hr)) as [H _].
  destruct (H Hj) as (b & e & p & Eb & Ee & Ei & H1 & H2 & H3). exists b, e, p. split_and!; try done.
  by eapply lookup_lt_Some.
Qed.

Lemma mat_addto sa p v sa' i j b e : a_ia A !! i = Some b → a_ia A !! S i = Some e → (b <= p < e)%nat → ja !! p = Some j →
  addto sa p v = Some sa' → ∀ i' j', mat A sa' i' j' = mat A sa i' j' + (if decide (i = i' ∧ j = j') then v else 0).
Proof using Hja Hh.
  intros Eb Ee Hp Hj Ha i' j'. unfold mat. rewrite Hja.
  destruct (a_ia A !! i') as [b'|] eqn:Eb'; [|destruct (decide _) as [[-> _]|]; [congruence|lra]].
  destruct (a_ia A !! S i') as [e'|] eqn:Ee'; [|destruct (decide _) as [[-> _]|]; [congruence|lra]].
  rewrite (rsum_ext _ (λ q, (if decide (ja !! q = Some j') then default 0 (sa !! q) else 0) + (if decide (q = p) then (if decide (j = j') then v else 0) else 0))).
  2: { intros q Hq. destruct (addto_lookup _ _ _ _ q Ha) as [_ ->].
       destruct (decide (ja !! q = Some j')) as [Hq'|Hq'].
       - destruct (decide (q = p)) as [->|Hn].
         + rewrite (decide_True (P := p = p)) by done. rewrite decide_True by congruence.
           apply addto_inv in Ha as (x & -> & _). cbn [fmap option_fmap option_map default from_option]. unfold Datatypes.id. lra.
         + rewrite decide_False by done. destruct (sa !! q); cbn [fmap option_fmap option_map default from_option]; unfold Datatypes.id; lra.
       - destruct (decide (q = p)) as [->|Hn]; [|lra]. rewrite decide_False by congruence. lra. }
  rewrite rsum_plus. f_equal. destruct (decide (i = i')) as [<-|Hn].
  - rewrite Eb in Eb'. injection Eb' as <-. rewrite Ee in Ee'. injection Ee' as <-.
    rewrite (rsum_single (λ _, if decide (j = j') then v else 0) p); [|apply NoDup_seq|apply elem_of_seq; lia].
    destruct (decide (j = j')); [rewrite decide_True by done|rewrite decide_False by (intros [??]; auto)]; done.
  - rewrite (decide_False (P := i = i' ∧ j = j')) by (intros [??]; auto). apply rsum_zero. intros q Hq. apply elem_of_seq in Hq.
    destruct (decide (q = p)) as [->|]; [|done]. exfalso. apply Hn. eapply (pos_unique i i' b e b' e' p); eauto; lia.
Qed.

Definition exec (o : op) (s : sys) : option sys :=
  match o with
  | OA i j v => p ← elm_index bsearch i j A; adda p v s
  | OB k v => addb k v s
  end.
Definition stored (i j : nat) : Prop := ∃ r, rows !! i = Some r ∧ j ∈ r.
Definition valid (o : op) : Prop :=
  match o with OA i j _ => stored i j | OB k _ => (k < length rows)%nat end.
Definition sized (s : sys) : Prop := length (s_sa s) = length ja ∧ length (s_b s) = length rows.

Lemma exec_ok o s : valid o → sized s → ∃ s', exec o s = Some s' ∧ sized s' ∧
  (∀ i j, mat A (s_sa s') i j = mat A (s_sa s) i j + oa1 i j o) ∧
  (∀ k, s_b s' !! k = (λ x, x + ob1 k o) <$> s_b s !! k).
Proof using Hbs Hja Hh Hsort.
  intros Hv [H1 H2]. destruct o as [i j v|k v]; cbn [exec valid oa1 ob1] in *.
  - destruct Hv as (r & Hr & Hj). destruct (idx_pos _ _ _ Hr Hj) as (b & e & p & Eb & Ee & Ei & Hp & Hjp & Hlp).
    rewrite Ei. cbn [mbind option_bind]. unfold adda. destruct (lookup_lt_is_Some_2 (s_sa s) p) as [x Ex]; [lia|].
    destruct (addto (s_sa s) p v) as [sa'|] eqn:Ea; [|by rewrite (addto_Some _ _ _ _ Ex) in Ea]. cbn [mbind option_bind].
    eexists. split; [done|]. split; [|split].
    + split; [|done]. cbn [s_sa]. by destruct (addto_lookup _ _ _ _ 0%nat Ea) as [-> _].
    + intros i' j'. cbn [s_sa]. by apply (mat_addto _ p v _ i j b e).
    + intros k. cbn [s_b]. destruct (s_b s !! k); [|done]. cbn. f_equal. lra.
  - unfold addb. destruct (lookup_lt_is_Some_2 (s_b s) k) as [x Ex]; [lia|].
    destruct (addto (s_b s) k v) as [b'|] eqn:Ea; [|by rewrite (addto_Some _ _ _ _ Ex) in Ea]. cbn [mbind option_bind].
    eexists. split; [done|]. split; [|split].
    + split; [done|]. cbn [s_b]. by destruct (addto_lookup _ _ _ _ 0%nat Ea) as [-> _].
    + intros i' j'. cbn [s_sa]. lra.
    + intros k'. cbn [s_b]. by destruct (addto_lookup _ _ _ _ k' Ea) as [_ ->].
Qed.
Lemma execs_ok ops s : Forall valid ops → sized s → ∃ s', run exec ops s = Some s' ∧ sized s' ∧
  (∀ i j, mat A (s_sa s') i j = mat A (s_sa s) i j + oa ops i j) ∧
  (∀ k, s_b s' !! k = (λ x, x + ob ops k) <$> s_b s !! k).
Proof using Hbs Hja Hh Hsort.
  intros Hv. revert s. induction Hv as [|o ops Ho Hv IH]; intros s Hs.
  - exists s. split_and!; try done.
    + intros i j. unfold oa. simpl. lra.
    + intros k. destruct (s_b s !! k); [|done]. cbn. f_equal. unfold ob. simpl. lra.
  - destruct (exec_ok o s Ho Hs) as (s1 & E1 & Hs1 & HA1 & HB1). destruct (IH s1 Hs1) as (s2 & E2 & Hs2 & HA2 & HB2).
    exists s2. split_and!.
    + simpl. rewrite E1. done.
    + done.
    + intros i j. rewrite HA2, HA1. unfold oa. simpl. lra.
    + intros k. rewrite HB2, HB1. destruct (s_b s !! k); [|done]. cbn. f_equal. unfold ob. simpl. lra.
Qed.
Lemma execs_app l m s : run exec (l ++ m) s = (s ← run exec l s; run exec m s).
Proof using Type. apply run_app. Qed.

(** Matrix times vector. *)
Lemma rsum_mat sa u i n : (∀ k, k ∈ ja → (k < n)%nat) →
  rsum (λ j, mat A sa i j * u j) (seq 0 n) =
  match a_ia A !! i, a_ia A !! S i with
  | Some b, Some e => rsum (λ p, default 0 (sa !! p) * (match ja !! p with Some k => u k | None => 0 end)) (seq b (e - b))
  | _, _ => 0
  end.
Proof using Hja.
  intros Hk. unfold mat. rewrite Hja. destruct (a_ia A !! i) as [b|]; [|apply rsum_zero; intros; lra].
  destruct (a_ia A !! S i) as [e|]; [|apply rsum_zero; intros; lra].
  rewrite (rsum_ext _ (λ j, rsum (λ p, if decide (ja !! p = Some j) then default 0 (sa !! p) * u j else 0) (seq b (e - b)))).
  2: { intros j _. rewrite Rmult_comm, <- rsum_scale. apply rsum_ext. intros p _. destruct (decide _); lra. }
  rewrite rsum_swap. apply rsum_ext. intros p _. destruct (ja !! p) as [k|] eqn:E.
  - rewrite (rsum_ext _ (λ j, if decide (j = k) then default 0 (sa !! p) * u j else 0)).
    + rewrite (rsum_single (λ j, default 0 (sa !! p) * u j)); [done|apply NoDup_seq|].
      apply elem_of_seq. split; [lia|]. simpl. apply Hk. by eapply elem_of_list_lookup_2.
    + intros j _. destruct (decide (j = k)) as [->|]; [by rewrite decide_True|]. rewrite decide_False by congruence. done.
  - rewrite rsum_zero; [lra|]. intros j _. rewrite decide_False by done. done.
Qed.
End mat.
