(** C47: mobilities and fractional flow. *)
From Coq Require Import Reals Lra Psatz.
From Verif Require Import Base LoopModel LoopProof TofSpec AccModel AccProof TableModel MiscModel MiscSpec MiscProps.
Unset Default Proof Using.
Local Open Scope R_scope.

(** ** Loops over rows of a table *)
Definition table (n np : nat) (l : list R) (h : nat → nat → R) : Prop :=
  length l = (n * np)%nat ∧ ∀ i p, (i < n)%nat → (p < np)%nat → l !! (i * np + p)%nat = Some (h i p).
Lemma row_loop np b (F : nat → R → option R) (h k : nat → R) lam : (b + np <= length lam)%nat →
  (∀ p, (p < np)%nat → lam !! (b + p)%nat = Some (h p)) → (∀ p, (p < np)%nat → F p (h p) = Some (k p)) →
  ∃ lam', for_loop np 0 (λ p lam, x ← lam !! (b + p)%nat; q ← F p x; upd lam (b + p) q) lam = Some lam' ∧ length lam' = length lam ∧
    (∀ p, (p < np)%nat → lam' !! (b + p)%nat = Some (k p)) ∧ ∀ j, ¬ (b <= j < b + np)%nat → lam' !! j = lam !! j.
Proof.
  intros Hl Hh HF.
  destruct (for_loop_inv (λ m l, length l = length lam ∧ (∀ p, (p < np)%nat → l !! (b + p)%nat = Some (if decide (p < m)%nat then k p else h p)) ∧ ∀ j, ¬ (b <= j < b + np)%nat → l !! j = lam !! j)
    np 0 (λ p lam, x ← lam !! (b + p)%nat; q ← F p x; upd lam (b + p) q) lam) as (l & E & L & H & O).
  - split; [done|]. split; [|done]. intros p Hp. rewrite decide_False by lia. by apply Hh.
  - intros m l Hm (L & H & O). rewrite (H m) by lia. rewrite decide_False by lia. cbn [mbind option_bind]. rewrite HF by lia. cbn [mbind option_bind].
    rewrite upd_Some by lia. eexists. split; [done|]. split; [by rewrite insert_length|]. split.
    + intros p Hp. destruct (decide (p = m)) as [->|Hn].
      * rewrite list_lookup_insert by lia. by rewrite decide_True by lia.
      * rewrite list_lookup_insert_ne by lia. rewrite H by done. destruct (decide (p < m)%nat); [by rewrite decide_True by lia|by rewrite decide_False by lia].
    + intros j Hj. rewrite list_lookup_insert_ne by lia. by apply O.
  - exists l. split; [done|]. split; [done|]. split; [|done]. intros p Hp. rewrite H by done. by rewrite decide_True by (cbn; lia).
Qed.
Lemma table_loop n np (f : nat → list R → option (list R)) (h k : nat → nat → R) lam : table n np lam h →
  (∀ i l, (i < n)%nat → length l = (n * np)%nat → (∀ p, (p < np)%nat → l !! (i * np + p)%nat = Some (h i p)) →
    ∃ l', f i l = Some l' ∧ length l' = length l ∧ (∀ p, (p < np)%nat → l' !! (i * np + p)%nat = Some (k i p)) ∧
      ∀ j, ¬ (i * np <= j < i * np + np)%nat → l' !! j = l !! j) →
  ∃ lam', for_loop n 0 f lam = Some lam' ∧ table n np lam' k.
Proof.
  intros [Hl Hh] Hf.
  destruct (for_loop_inv (λ m l, length l = (n * np)%nat ∧ ∀ i p, (i < n)%nat → (p < np)%nat → l !! (i * np + p)%nat = Some (if decide (i < m)%nat then k i p else h i p)) n 0 f lam) as (l & E & L & H).
  - split; [done|]. intros i p Hi Hp. rewrite decide_False by lia. by apply Hh.
  - intros m l Hm (L & H). destruct (Hf m l) as (l' & E & L' & H' & O); [lia|done| |].
    { intros p Hp. rewrite H by lia. by rewrite decide_False by lia. }
    exists l'. split; [done|]. split; [lia|]. intros i p Hi Hp. destruct (decide (i = m)) as [->|Hn].
    + rewrite H' by done. by rewrite decide_True by lia.
    + rewrite O by nia. rewrite H by done. destruct (decide (i < m)%nat); [by rewrite decide_True by lia|by rewrite decide_False by lia].
  - exists l. split; [done|]. split; [done|]. intros i p Hi Hp. rewrite H by done. by rewrite decide_True by (cbn; lia).
Qed.

Section mobs.
Variable relperm : list R → nat → list R.
Variables visc rho : list R.
Variable np : nat.
Hypothesis Hkr : ∀ sat c, length (relperm sat c) = np.
Hypothesis Hvisc : ∀ p, (p < np)%nat → ∃ v, visc !! p = Some v ∧ v ≠ 0.
Variables (cells : list nat) (s : list R).
Hypothesis Hs : length s = (length cells * np)%nat.
Notation cell i := (default 0%nat (cells !! i)).

(** computePhaseMobilities. *)
Theorem C47_mobilities : ∃ pm, compute_phase_mobilities relperm visc np cells s = Some pm ∧
  table (length cells) np pm (λ i p, mob relperm visc np s i (cell i) p).
Proof using Hkr Hvisc Hs.
  unfold compute_phase_mobilities. rewrite decide_True by done.
  destruct (table_loop (length cells) np (λ i kr, c ← cells !! i; sat ← slice s (np * i) np; memcpy kr (np * i) (relperm sat c))
    (λ _ _, 0) (λ i p, val (relperm (sats np s i) (cell i)) p) (replicate (length cells * np) 0)) as (kr & E & Hk).
  { split; [apply replicate_length|]. intros i p Hi Hp. apply lookup_replicate. split; [done|nia]. }
  { intros i l Hi Hl _. destruct (lookup_lt_is_Some_2 cells i Hi) as [c Ec]. rewrite Ec. cbn [mbind option_bind default].
    rewrite slice_Some by (rewrite Hs; nia). fold (sats np s i). cbn [mbind option_bind]. rewrite !(Nat.mul_comm i np).
    destruct (memcpy l (np * i) (relperm (sats np s i) c)) as [l'|] eqn:Em. 2: { rewrite memcpy_Some in Em; [done|]. rewrite Hkr, Hl. nia. }
    exists l'. split; [done|]. split; [by eapply memcpy_length|]. split.
    - intros p Hp. rewrite (memcpy_lookup_mid _ _ _ _ _ Em) by (by rewrite Hkr). apply val_Some. by rewrite Hkr.
    - intros j Hj. destruct (decide (j < np * i)%nat); [by apply (memcpy_lookup_lt _ _ _ _ _ Em)|]. apply (memcpy_lookup_ge _ _ _ _ _ Em). rewrite Hkr. lia. }
  rewrite E. cbn [mbind option_bind]. apply (table_loop _ _ _ (λ i p, val (relperm (sats np s i) (cell i)) p)); [done|].
  intros i l Hi Hl Hh.
  destruct (row_loop np (i * np) (λ p x, m ← visc !! p; rdiv x m) (λ p, val (relperm (sats np s i) (cell i)) p) (λ p, mob relperm visc np s i (cell i) p) l) as (l' & El & R); [rewrite Hl; nia|done| |].
  { intros p Hp. destruct (visc_val visc np Hvisc p Hp) as [-> Hv]. cbn [mbind option_bind]. unfold rdiv. by destruct (Req_EM_T _ _). }
  exists l'. split; [|done]. rewrite <- El. apply for_loop_ext. intros p t _. destruct (t !! _); [|done]. cbn [mbind option_bind]. by destruct (visc !! p).
Qed.

Lemma sum_loop n b (l : list R) (h : nat → R) a : (∀ p, (p < n)%nat → l !! (b + p)%nat = Some (h p)) →
  for_loop n 0 (λ p sum, x ← l !! (b + p)%nat; Some (sum + x)) a = Some (a + rsum h (seq 0 n)).
Proof using.
  clear. intros H. destruct (for_loop_inv (λ k t, t = a + rsum h (seq 0 k)) n 0 (λ p sum, x ← l !! (b + p)%nat; Some (sum + x)) a) as (t & E & ->).
  - simpl. lra.
  - intros k t Hk ->. rewrite H by lia. cbn [mbind option_bind]. eexists. split; [done|]. rewrite rsum_seq_S. lra.
  - by rewrite E.
Qed.

(** computeFractionalFlow: the share of each phase. *)
Theorem C47_fractional : (∀ i, (i < length cells)%nat → totmob relperm visc np s i (cell i) ≠ 0) →
  ∃ ff, compute_fractional_flow relperm visc np cells s = Some ff ∧ table (length cells) np ff (λ i p, share relperm visc np s i (cell i) p).
Proof using Hkr Hvisc Hs.
  intros Ht. unfold compute_fractional_flow. destruct C47_mobilities as (pm & -> & Hpm). cbn [mbind option_bind].
  apply (table_loop _ _ _ (λ i p, mob relperm visc np s i (cell i) p)); [done|]. intros i l Hi Hl Hh.
  rewrite (sum_loop _ _ _ (mob relperm visc np s i (cell i))) by done. cbn [mbind option_bind]. rewrite Rplus_0_l. fold (totmob relperm visc np s i (cell i)).
  apply (row_loop np (i * np) (λ p x, rdiv x (totmob relperm visc np s i (cell i))) (mob relperm visc np s i (cell i)) (share relperm visc np s i (cell i))); [rewrite Hl; nia|done|].
  intros p Hp. unfold rdiv. destruct (Req_EM_T _ _) as [E|]; [by apply Ht in E|done].
Qed.
(** The shares add up to one. *)
Theorem C47_shares i c : totmob relperm visc np s i c ≠ 0 → rsum (share relperm visc np s i c) (seq 0 np) = 1.
Proof using. clear. intros H. unfold share. rewrite rsum_div. unfold totmob in *. by field. Qed.

(** computeTotalMobility. *)
Theorem C47_total_mobility : compute_total_mobility relperm visc np cells s = Some (map (λ i, totmob relperm visc np s i (cell i)) (seq 0 (length cells))).
Proof using Hkr Hvisc Hs.
  unfold compute_total_mobility. destruct C47_mobilities as (pm & -> & Lpm & Hpm). cbn [mbind option_bind].
  rewrite (acc_loop _ _ (λ i, concat (map (λ p, [(i, mob relperm visc np s i (cell i) p)]) (seq 0 np)))).
  2: { intros i t Hi. apply acc_loop. intros p u Hp. rewrite Hpm by done. cbn [mbind option_bind accs fst snd]. by destruct (addto _ _ _). }
  set (kvs := concat _). assert (∀ k v, (k, v) ∈ kvs → (k < length cells)%nat) as Hb.
  { intros k v H. apply elem_of_list_In, in_concat in H as (l & Hl & Hk). apply in_map_iff in Hl as (c & <- & Hc). apply in_concat in Hk as (l & Hl & Hk). apply in_map_iff in Hl as (p & <- & _). destruct Hk as [Hk|[]]. injection Hk as <- _. apply in_seq in Hc. lia. }
  destruct (accs_ok (replicate (length cells) 0) kvs) as [tot E]. { intros k v H. rewrite replicate_length. by eapply Hb. }
  rewrite E. f_equal. apply accs_inv in E as [L H]. rewrite replicate_length in L. apply list_eq. intros i. rewrite H.
  destruct (decide (i < length cells)%nat) as [Hi|Hi].
  - rewrite lookup_replicate_2 by done. cbn. rewrite list_lookup_fmap, lookup_seq_lt by done. cbn. f_equal. rewrite Rplus_0_l. unfold kvs. rewrite tally_concat.
    rewrite (rsum_ext _ (λ j, if decide (j = i) then totmob relperm visc np s j (cell j) else 0)).
    + rewrite rsum_single; [done|apply NoDup_seq|apply elem_of_seq; lia].
    + intros j _. rewrite tally_concat. case_decide as Hj.
      * apply rsum_ext. intros p _. rewrite tally_cons, tally_nil, decide_True by done. lra.
      * apply rsum_zero. intros p _. rewrite tally_cons, tally_nil, decide_False by done. lra.
  - rewrite (lookup_ge_None_2 (replicate _ _)) by (rewrite replicate_length; lia). cbn. rewrite lookup_ge_None_2; [done|]. rewrite map_length, seq_length. lia.
Qed.

(** computeTotalMobilityOmega: the average of the densities, weighted by mobility. *)
Theorem C47_omega : (∀ p, (p < np)%nat → is_Some (rho !! p)) → (∀ i, (i < length cells)%nat → totmob relperm visc np s i (cell i) ≠ 0) →
  compute_total_mobility_omega relperm visc rho np cells s = Some (map (λ i, totmob relperm visc np s i (cell i)) (seq 0 (length cells)),
    map (λ i, rsum (λ p, mob relperm visc np s i (cell i) p * val rho p) (seq 0 np) / totmob relperm visc np s i (cell i)) (seq 0 (length cells))).
Proof using Hkr Hvisc Hs.
  intros Hrho Ht. unfold compute_total_mobility_omega. destruct C47_mobilities as (pm & -> & Lpm & Hpm). cbn [mbind option_bind].
  set (T := λ i, totmob relperm visc np s i (cell i)). set (O := λ i, rsum (λ p, mob relperm visc np s i (cell i) p * val rho p) (seq 0 np)).
  set (body := λ c '(tot, omega), _).
  destruct (for_loop_inv (λ k '(tot, omega), length tot = length cells ∧ length omega = length cells ∧
     ∀ i, (i < length cells)%nat → tot !! i = Some (if decide (i < k)%nat then T i else 0) ∧ omega !! i = Some (if decide (i < k)%nat then O i / T i else 0)) (length cells) 0 body
     (replicate (length cells) 0, replicate (length cells) 0)) as ([tot omega] & E & L1 & L2 & H).
  - rewrite replicate_length. split; [done|]. split; [done|]. intros i Hi. rewrite decide_False by lia. by rewrite lookup_replicate_2.
  - intros k [tot omega] Hk (L1 & L2 & H). unfold body.
    set (inner := λ p '(tot, omega), _).
    destruct (for_loop_inv (λ m '(t, o), t = <[k := rsum (λ p, mob relperm visc np s k (cell k) p) (seq 0 m)]> tot ∧ o = <[k := rsum (λ p, mob relperm visc np s k (cell k) p * val rho p) (seq 0 m)]> omega) np 0 inner (tot, omega)) as ([t o] & Ei & -> & ->).
    { destruct (H k) as [Ea Eb]; [lia|]. rewrite decide_False in Ea, Eb by lia. cbn. by rewrite !list_insert_id. }
    { intros m [t o] Hm [-> ->]. unfold inner. rewrite Hpm by lia. cbn [mbind option_bind].
      rewrite (addto_Some _ _ _ (rsum (λ p, mob relperm visc np s k (cell k) p) (seq 0 m))) by (apply list_lookup_insert; lia). cbn [mbind option_bind].
      destruct (Hrho m) as [r Er]; [lia|]. rewrite Er. cbn [mbind option_bind].
      rewrite (addto_Some _ _ _ (rsum (λ p, mob relperm visc np s k (cell k) p * val rho p) (seq 0 m))) by (apply list_lookup_insert; lia). cbn [mbind option_bind].
      eexists. split; [done|]. rewrite !list_insert_insert. rewrite !rsum_seq_S. by rewrite (val_eq _ _ _ Er). }
    rewrite Ei. cbn [mbind option_bind Nat.add]. rewrite !list_lookup_insert by lia. cbn [mbind option_bind]. fold (totmob relperm visc np s k (cell k)). fold (T k). fold (O k).
    unfold rdiv. destruct (Req_EM_T _ _) as [E0|_]; [by apply Ht in E0; [|lia]|]. cbn [mbind option_bind]. rewrite upd_Some by (rewrite insert_length; lia). cbn [mbind option_bind].
    eexists. split; [done|]. cbv beta iota. rewrite !insert_length. split; [done|]. split; [done|]. intros i Hi. rewrite list_insert_insert. destruct (decide (i = k)) as [->|Hn].
    + rewrite !list_lookup_insert by lia. by rewrite !decide_True by lia.
    + rewrite !list_lookup_insert_ne by done. destruct (H i Hi) as [-> ->]. destruct (decide (i < k)%nat); [by rewrite !decide_True by lia|by rewrite !decide_False by lia].
  - rewrite E. do 2 f_equal; apply list_eq; intros i; (destruct (decide (i < length cells)%nat) as [Hi|Hi];
      [rewrite list_lookup_fmap, lookup_seq_lt by done; destruct (H i Hi) as [Ha Hb]; rewrite decide_True in Ha, Hb by (cbn; lia); by (apply Ha || apply Hb)
      |rewrite !lookup_ge_None_2; [done|rewrite map_length, seq_length; lia|lia]]).
Qed.
(** It lies between the densities. *)
Theorem C47_omega_bounds lo hi i c : (∀ p, (p < np)%nat → 0 <= mob relperm visc np s i c p ∧ lo <= val rho p <= hi) → 0 < totmob relperm visc np s i c →
  lo <= rsum (λ p, mob relperm visc np s i c p * val rho p) (seq 0 np) / totmob relperm visc np s i c <= hi.
Proof using.
  clear. intros H Ht.
  assert (lo * totmob relperm visc np s i c <= rsum (λ p, mob relperm visc np s i c p * val rho p) (seq 0 np)). { unfold totmob. rewrite <- rsum_scale. apply rsum_le. intros p Hp. apply elem_of_seq in Hp. destruct (H p) as [? ?]; [lia|]. nra. }
  assert (rsum (λ p, mob relperm visc np s i c p * val rho p) (seq 0 np) <= hi * totmob relperm visc np s i c). { unfold totmob. rewrite <- rsum_scale. apply rsum_le. intros p Hp. apply elem_of_seq in Hp. destruct (H p) as [? ?]; [lia|]. nra. }
  split; apply (Rmult_le_reg_r (totmob relperm visc np s i c)); try done; unfold Rdiv; rewrite Rmult_assoc, Rinv_l by lra; lra.
Qed.
End mobs.
Print Assumptions C47_mobilities.
Print Assumptions C47_fractional.
Print Assumptions C47_shares.
Print Assumptions C47_total_mobility.
Print Assumptions C47_omega.
Print Assumptions C47_omega_bounds.

(** Two phases, two cells. *)
Definition kr2 (sat : list R) (c : nat) : list R := match sat with [a; b] => [a * a; b * b] | _ => [0; 0] end.
Lemma kr2_length sat c : length (kr2 sat c) = 2%nat.
Proof. by destruct sat as [|? [|? [|? ?]]]. Qed.
Lemma visc2 p : (p < 2)%nat → ∃ v, [1; 4] !! p = Some v ∧ v ≠ 0.
Proof. destruct p as [|[|p]]; intros; [exists 1|exists 4|lia]; (split; [done|lra]). Qed.
Example C47_fractional_case : compute_fractional_flow kr2 [1; 4] 2 [5%nat; 3%nat] [1/2; 1/2; 0; 1] = Some [4/5; 1/5; 0; 1].
Proof.
  destruct (C47_fractional kr2 [1; 4] 2 kr2_length visc2 [5%nat; 3%nat] [1/2; 1/2; 0; 1] eq_refl) as (ff & -> & L & H).
  { intros [|[|i]] Hi; cbn in Hi; [| |lia]; unfold totmob, mob, val; cbn; lra. }
  destruct ff as [|a [|b [|c [|d [|? ?]]]]]; try done.
  pose proof (H 0 0 ltac:(cbn; lia) ltac:(lia))%nat as H0. pose proof (H 0 1 ltac:(cbn; lia) ltac:(lia))%nat as H1.
  pose proof (H 1 0 ltac:(cbn; lia) ltac:(lia))%nat as H2. pose proof (H 1 1 ltac:(cbn; lia) ltac:(lia))%nat as H3. clear H.
  unfold share, totmob, mob, val in *. cbn in *. injection H0 as ->. injection H1 as ->. injection H2 as ->. injection H3 as ->.
  f_equal. f_equal; [field|]. f_equal; [field|]. f_equal; [field|]. f_equal. field.
Qed.
Example C47_omega_case : compute_total_mobility_omega kr2 [1; 4] [1000; 800] 2 [5%nat] [1/2; 1/2] = Some ([5/16], [960]).
Proof.
  rewrite (C47_omega kr2 [1; 4] [1000; 800] 2 kr2_length visc2 [5%nat] [1/2; 1/2] eq_refl).
  - unfold totmob, mob, val. cbn. do 2 f_equal; [f_equal; lra|]. f_equal. field.
  - intros [|[|p]] Hp; [by eexists|by eexists|lia].
  - intros [|i] Hi; cbn in Hi; [|lia]. unfold totmob, mob, val. cbn. lra.
Qed.
