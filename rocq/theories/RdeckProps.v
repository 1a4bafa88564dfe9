(** Rock from a deck and simple rock (C67). *)
From Coq Require Import Reals Lra Psatz String.
From Verif Require Import Base LoopModel LoopProof RdeckModel RdeckSpec RdeckProof.
Local Open Scope R_scope.
Unset Default Proof Using.

Lemma keyword_all (P : nat → nat → Prop) : (∀ k, (k < 9)%nat → P (k / 3)%nat (k mod 3)%nat) → ∀ i j, (i < 3)%nat → (j < 3)%nat → P i j.
Proof. intros H i j Hi Hj. specialize (H (3 * i + j)%nat ltac:(lia)). replace ((3 * i + j) / 3)%nat with i in H; [replace ((3 * i + j) mod 3)%nat with j in H; [done|]|]. - destruct i as [|[|[|]]]; try lia; destruct j as [|[|[|]]]; try lia; done. - destruct i as [|[|[|]]]; try lia; destruct j as [|[|[|]]]; try lia; done. Qed.

Lemma fill_ok deck zero : structured deck → ∃ t km, fill_tensor deck zero = Some (t, km) ∧
  (∀ k, (k < 9)%nat → ∃ m, km !! k = Some m ∧ t !! m = Some (default zero (given deck (k / 3) (k mod 3)))) ∧
  (some_perm deck → (1 < length t)%nat) ∧ (¬ some_perm deck → length t = 1%nat).
Proof.
  intros Hs. rewrite fill_steps by (by apply deck_ok_structured). destruct (steps_ok deck zero) as ([t km] & E & _ & Hm & Hl). exists t, km. split; [done|].
  assert (∀ k, (k < 9)%nat → entryb (t, km) k = Some (default zero (given deck (k / 3) (k mod 3)))) as Hk.
  { intros k Hk. assert (map (entryb (t, km)) (seq 0 9) !! k = map (λ k, Some (default zero (given deck (k / 3) (k mod 3)))) (seq 0 9) !! k) as H by (by rewrite Hm).
    rewrite !list_lookup_fmap, lookup_seq_lt in H by done. cbn [fmap option_fmap option_map] in H. by injection H. }
  split; [|cbn [fst] in Hl; split].
  - intros k Hk'. apply (entry_of (t, km)). by apply Hk.
  - intros (i & j & Hi & Hj & Hij). destruct t as [|x [|y t]]; [|exfalso|cbn; lia].
    + destruct (entry_of _ _ _ (Hk 0%nat ltac:(lia))) as (m & _ & Em). done.
    + specialize (proj1 Hl eq_refl) as E'. apply has_iff in Hij.
      assert (map (λ k, has deck (keyword (k / 3) (k mod 3))) (seq 0 9) !! (3 * i + j)%nat = Some false) as E1.
      { rewrite E'. apply lookup_replicate_2. lia. }
      rewrite list_lookup_fmap, lookup_seq_lt in E1 by lia. cbn [fmap option_fmap option_map] in E1.
      revert E1 Hij. revert i j Hi Hj. refine (keyword_all (λ i j, Some (has deck (keyword ((0 + (3 * i + j)) / 3) ((0 + (3 * i + j)) mod 3))) = Some false → has deck (keyword i j) = true → False) _).
      intros k Hk'. replace (0 + (3 * (k / 3) + k mod 3))%nat with k by (pose proof (Nat.div_mod k 3 ltac:(lia)); lia). congruence.
  - intros Hn. apply Hl. apply list_eq. intros k. destruct (decide (k < 9)%nat) as [Hk9|Hk9].
    + rewrite list_lookup_fmap, lookup_seq_lt, lookup_replicate_2 by lia. cbn [fmap option_fmap option_map]. f_equal. change (0 + k)%nat with k.
      destruct (has deck (keyword (k / 3) (k mod 3))) eqn:Eh; [|done]. exfalso. apply Hn. apply has_iff in Eh.
      exists (k / 3)%nat, (k mod 3)%nat. split; [apply Nat.div_lt_upper_bound; lia|]. split; [apply Nat.mod_upper_bound; lia|done].
    + rewrite (lookup_ge_None_2 (map _ _)), (lookup_ge_None_2 (replicate _ _)); [done|cbn; lia|cbn; lia].
Qed.

Lemma given_sym deck i j : given deck i j = given deck j i.
Proof.
  unfold given. destruct (decide (i = j)) as [Hij|Hij].
  - subst j. by rewrite decide_True.
  - rewrite (decide_False (P := j = i)) by congruence. by rewrite (Nat.max_comm j i), (Nat.min_comm j i).
Qed.
Lemma given_full deck N i j l : full deck N → (i < 3)%nat → (j < 3)%nat → given deck i j = Some l → length l = N.
Proof.
  intros Hf Hi Hj. unfold given. case_decide as D; cbn [first_given].
  - destruct (deck (keyword i i)) eqn:E1; [intros [= <-]; by apply (Hf i i)|].
    destruct (deck (keyword 0 0)) eqn:E2; [intros [= <-]; apply (Hf 0%nat 0%nat); [lia|lia|done]|].
    destruct (deck (keyword 1 1)) eqn:E3; [intros [= <-]; apply (Hf 1%nat 1%nat); [lia|lia|done]|].
    destruct (deck (keyword 2 2)) eqn:E4; [intros [= <-]; apply (Hf 2%nat 2%nat); [lia|lia|done]|done].
  - destruct (deck (keyword (i `max` j) (i `min` j))) eqn:E1; [intros [= <-]; apply (Hf (i `max` j)%nat (i `min` j)%nat); [lia|lia|done]|].
    destruct (deck (keyword (i `min` j) (i `max` j))) eqn:E2; [intros [= <-]; apply (Hf (i `min` j)%nat (i `max` j)%nat); [lia|lia|done]|done].
Qed.
Lemma given_value deck N i j g : full deck N → (i < 3)%nat → (j < 3)%nat → (g < N)%nat →
  default (replicate N 0) (given deck i j) !! g = Some (at_pos (given deck i j) g).
Proof.
  intros Hf Hi Hj Hg. unfold at_pos. destruct (given deck i j) as [l|] eqn:E; cbn [default].
  - pose proof (given_full deck N i j l Hf Hi Hj E). destruct (lookup_lt_is_Some_2 l g) as [x Ex]; [lia|]. cbn. by rewrite Ex.
  - cbn. by apply lookup_replicate_2.
Qed.

(** What is stored at (i, j) for a cell at position [g] of the deck. *)
Definition comp (deck : string → option (list R)) (thr : R) (g i j : nat) : R :=
  if decide (i = j) then Rmax (at_pos (given deck i j) g) thr else at_pos (given deck i j) g.

Lemma cell_ok deck N t km g off thr perm : full deck N → (g < N)%nat → (off + 9 <= length perm)%nat →
  (∀ k, (k < 9)%nat → ∃ m, km !! k = Some m ∧ t !! m = Some (default (replicate N 0) (given deck (k / 3) (k mod 3)))) →
  ∃ perm', cell_tensor t km g off thr perm = Some perm' ∧ length perm' = length perm ∧
    (∀ x, (x < off)%nat → perm' !! x = perm !! x) ∧
    (∀ i j, (i < 3)%nat → (j < 3)%nat → perm' !! (off + 3 * i + j)%nat = Some (comp deck thr g i j)).
Proof.
  intros Hf Hg Ho Hkm. unfold cell_tensor.
  edestruct (for_loop_inv (λ i (st : list R * nat), snd st = (3 * i)%nat ∧ length (fst st) = length perm ∧ (∀ x, (x < off)%nat → fst st !! x = perm !! x) ∧
    ∀ a j, (a < i)%nat → (j < 3)%nat → fst st !! (off + 3 * a + j)%nat = Some (comp deck thr g a j)) 3 0) as (st & -> & Hst).
  - split; [done|]. split; [done|]. split; [done|]. intros; lia.
  - intros i [p kix] Hi (Hkix & Hlen & Hbef & Hprev). cbn [fst snd] in *.
    edestruct (for_loop_inv (λ j (st : list R * nat), snd st = (3 * i + j)%nat ∧ length (fst st) = length perm ∧ (∀ x, (x < off)%nat → fst st !! x = perm !! x) ∧
      (∀ a b, (a < i)%nat → (b < 3)%nat → fst st !! (off + 3 * a + b)%nat = Some (comp deck thr g a b)) ∧
      ∀ b, (b < j)%nat → fst st !! (off + 3 * i + b)%nat = Some (at_pos (given deck i b) g)) 3 0) as ([p' k'] & E & Hst).
    3:{ rewrite E. cbn [mbind option_bind fst snd] in *. destruct Hst as (Hk' & Hlen' & Hbef' & Hprev' & Hrow).
        rewrite (Hrow i) by lia. cbn [mbind option_bind]. rewrite upd_Some by lia. cbn [mbind option_bind].
        eexists. split; [reflexivity|]. cbn [fst snd]. split; [lia|]. split; [by rewrite insert_length|]. split.
        - intros x Hx. rewrite list_lookup_insert_ne by lia. by apply Hbef'.
        - intros a j Ha Hj. destruct (decide (a = i)) as [->|Hai].
          + destruct (decide (j = i)) as [->|Hji].
            * rewrite list_lookup_insert by lia. unfold comp. by rewrite decide_True.
            * rewrite list_lookup_insert_ne by lia. rewrite (Hrow j) by lia. unfold comp. by rewrite decide_False.
          + rewrite list_lookup_insert_ne by lia. apply Hprev'; lia. }
    + cbn [fst snd]. split; [lia|]. split; [done|]. split; [done|]. split; [intros; apply Hprev; lia|intros; lia].
    + intros j [p' k'] Hj (Hk' & Hlen' & Hbef' & Hprev' & Hrow). cbn [fst snd] in *.
      destruct (Hkm k') as (m & -> & Hm); [lia|]. cbn [mbind option_bind]. rewrite Hm. cbn [mbind option_bind].
      assert ((k' / 3)%nat = i) as Ei by (subst k'; destruct i as [|[|[|]]]; try lia; destruct j as [|[|[|]]]; try lia; done).
      assert ((k' mod 3)%nat = j) as Ej by (subst k'; destruct i as [|[|[|]]]; try lia; destruct j as [|[|[|]]]; try lia; done).
      rewrite Ei, Ej. rewrite given_value by (done || lia). cbn [mbind option_bind]. rewrite upd_Some by lia. cbn [mbind option_bind].
      eexists. split; [reflexivity|]. cbn [fst snd]. split; [lia|]. split; [by rewrite insert_length|]. split; [|split].
      * intros x Hx. rewrite list_lookup_insert_ne by lia. by apply Hbef'.
      * intros a b Ha Hb. rewrite list_lookup_insert_ne by lia. by apply Hprev'.
      * intros b Hb. destruct (decide (b = j)) as [->|Hbj].
        -- replace (off + 3 * i + j)%nat with (off + k')%nat by lia. by rewrite list_lookup_insert by lia.
        -- rewrite list_lookup_insert_ne by lia. apply Hrow. lia.
  - cbn [mbind option_bind]. destruct Hst as (_ & Hlen & Hbef & Hall). eexists. split; [reflexivity|]. split; [done|]. split; [done|].
    intros i j Hi Hj. apply Hall; lia.
Qed.

Lemma deck_pos_ok gc nc N c : mapped gc nc N → (c < nc)%nat → deck_pos gc c = Some (pos_of gc c) ∧ (pos_of gc c < N)%nat.
Proof.
  intros H Hc. destruct gc as [g|]; cbn in *; [|split; [done|lia]]. destruct H as [H1 H2]. specialize (H2 c Hc).
  destruct (lookup_lt_is_Some_2 g c) as [x Ex]; [lia|]. rewrite Ex in *. by split.
Qed.

(** The permeability: of every cell and component the value the deck gives it
    (see [given]), on the diagonal not below the threshold; without any keyword
    nothing but 0, and the fields are not marked valid. *)
Theorem C67_permeability (deck : string → option (list R)) (nx ny nz : nat) (gc : option (list nat)) (nc : nat) (thr : R) (valid : list bool) :
  (0 < nx * ny * nz)%nat → structured deck → full deck (nx * ny * nz) → mapped gc nc (nx * ny * nz) → length valid = nc →
  ∃ perm valid', assign_permeability deck (nx, ny, nz) gc nc thr valid = Some (perm, valid') ∧ length perm = (9 * nc)%nat ∧
    (some_perm deck → valid' = replicate nc true ∧ ∀ c i j, (c < nc)%nat → (i < 3)%nat → (j < 3)%nat →
      perm !! (9 * c + 3 * i + j)%nat = Some (if decide (i = j) then Rmax (at_pos (given deck i j) (pos_of gc c)) thr else at_pos (given deck i j) (pos_of gc c))) ∧
    (¬ some_perm deck → valid' = valid ∧ perm = replicate (9 * nc) 0).
Proof.
  intros HN Hs Hf Hm Hv. unfold assign_permeability. rewrite decide_True by done.
  destruct (fill_ok deck (replicate (nx * ny * nz) 0) Hs) as (t & km & -> & Hkm & Hsome & Hnone). cbn [mbind option_bind].
  case_decide as Hlt.
  2:{ eexists _, _. split; [reflexivity|]. split; [by rewrite replicate_length|]. split; [|done]. intros H. specialize (Hsome H). lia. }
  edestruct (for_loop_inv (λ c (st : list R * nat * list bool), snd (fst st) = (9 * c)%nat ∧ length (fst (fst st)) = (9 * nc)%nat ∧ length (snd st) = nc ∧
    (∀ c', (c' < c)%nat → snd st !! c' = Some true) ∧
    ∀ c' i j, (c' < c)%nat → (i < 3)%nat → (j < 3)%nat → fst (fst st) !! (9 * c' + 3 * i + j)%nat = Some (comp deck thr (pos_of gc c') i j)) nc 0) as ([[p off] v] & E & Hst).
  3:{ rewrite E. cbn [mbind option_bind fst snd] in *. destruct Hst as (_ & Hlen & Hvl & Hvt & Hall). eexists _, _. split; [reflexivity|]. split; [done|]. split.
      - intros _. split.
        + apply list_eq. intros c. destruct (decide (c < nc)%nat). * rewrite Hvt by lia. by rewrite lookup_replicate_2. * rewrite !lookup_ge_None_2; [done|by rewrite replicate_length; lia|lia].
        + intros c i j Hc Hi Hj. apply Hall; lia.
      - intros H. specialize (Hnone H). lia. }
  - cbn [fst snd]. split; [lia|]. split; [by rewrite replicate_length|]. split; [done|]. split; intros; lia.
  - intros c [[p off] v] Hc (Hoff & Hlen & Hvl & Hvt & Hall). cbn [fst snd] in *.
    destruct (deck_pos_ok gc nc (nx * ny * nz) c Hm) as [-> Hp]; [lia|]. cbn [mbind option_bind].
    destruct (cell_ok deck (nx * ny * nz) t km (pos_of gc c) off thr p Hf Hp ltac:(lia) Hkm) as (p' & -> & Hlen' & Hbef & Hnew).
    cbn [mbind option_bind]. rewrite upd_Some by lia. cbn [mbind option_bind]. eexists. split; [reflexivity|]. cbn [fst snd].
    split; [lia|]. split; [lia|]. split; [by rewrite insert_length|]. split.
    + intros c' Hc'. destruct (decide (c' = c)) as [->|]; [by rewrite list_lookup_insert by lia|]. rewrite list_lookup_insert_ne by lia. apply Hvt. lia.
    + intros c' i j Hc' Hi Hj. destruct (decide (c' = c)) as [->|]; [rewrite <- Hoff; by apply Hnew|]. rewrite Hbef by lia. apply Hall; lia.
Qed.
Print Assumptions C67_permeability.

(** Components off the diagonal without those on the diagonal are refused. *)
Theorem C67_refuses (deck : string → option (list R)) (dims : nat * nat * nat) (gc : option (list nat)) (nc : nat) (thr : R) (valid : list bool) :
  ¬ structured deck → assign_permeability deck dims gc nc thr valid = None.
Proof.
  intros H. unfold assign_permeability. destruct dims as [[nx ny] nz]. case_decide; [|done].
  rewrite fill_bad; [done|]. destruct (deck_ok deck) eqn:E; [|done]. exfalso. apply H. by apply deck_ok_structured.
Qed.
Print Assumptions C67_refuses.

(** So the tensors are symmetric and have no negative diagonal. *)
Theorem C67_symmetric (deck : string → option (list R)) (nx ny nz : nat) (gc : option (list nat)) (nc : nat) :
  (0 < nx * ny * nz)%nat → structured deck → full deck (nx * ny * nz) → mapped gc nc (nx * ny * nz) →
  (∀ poro, deck "PORO"%string = Some poro → length poro = (nx * ny * nz)%nat) →
  ∃ r, rock_init deck (nx, ny, nz) gc nc = Some r ∧
    (∀ c i j, (c < nc)%nat → (i < 3)%nat → (j < 3)%nat → dr_perm r !! (9 * c + 3 * i + j)%nat = dr_perm r !! (9 * c + 3 * j + i)%nat) ∧
    (∀ c i, (c < nc)%nat → (i < 3)%nat → ∃ k, dr_perm r !! (9 * c + 3 * i + i)%nat = Some k ∧ 0 <= k) ∧
    (length (dr_poro r) = nc ∧ ∀ c, (c < nc)%nat → dr_poro r !! c = Some (match deck "PORO"%string with None => 1 | Some poro => default 0 (poro !! pos_of gc c) end)) ∧
    (∀ c, (c < nc)%nat → (dr_valid r !! c = Some true ↔ some_perm deck)).
Proof.
  intros HN Hs Hf Hm Hp.
  assert (∃ poro, assign_porosity deck gc nc = Some poro ∧ length poro = nc ∧
    ∀ c, (c < nc)%nat → poro !! c = Some (match deck "PORO"%string with None => 1 | Some poro => default 0 (poro !! pos_of gc c) end)) as (poro & Eporo & Hpl & Hpv).
  { unfold assign_porosity. destruct (deck "PORO"%string) as [po|] eqn:E.
    - specialize (Hp po eq_refl).
      edestruct (for_loop_inv (λ c (st : list R), length st = nc ∧ ∀ c', (c' < c)%nat → st !! c' = Some (default 0 (po !! pos_of gc c'))) nc 0) as (st & Est & H1 & H2).
      3:{ rewrite Est. eexists. split; [reflexivity|]. split; [done|]. intros; apply H2; lia. }
      + split; [by rewrite replicate_length|intros; lia].
      + intros c st Hc [H1 H2]. destruct (deck_pos_ok gc nc (nx * ny * nz) c Hm) as [-> Hlt]; [lia|]. cbn [mbind option_bind].
        destruct (lookup_lt_is_Some_2 po (pos_of gc c)) as [x Ex]; [lia|]. rewrite Ex. cbn [mbind option_bind]. rewrite upd_Some by lia.
        eexists. split; [reflexivity|]. split; [by rewrite insert_length|]. intros c' Hc'. destruct (decide (c' = c)) as [->|].
        * rewrite list_lookup_insert by lia. by rewrite Ex.
        * rewrite list_lookup_insert_ne by lia. apply H2. lia.
    - eexists. split; [reflexivity|]. split; [by rewrite replicate_length|]. intros. by apply lookup_replicate_2. }
  destruct (C67_permeability deck nx ny nz gc nc 0 (replicate nc false) HN Hs Hf Hm ltac:(by rewrite replicate_length)) as (perm & valid & Eperm & Hlen & Hsome & Hnone).
  unfold rock_init. rewrite Eporo. cbn [mbind option_bind]. rewrite Eperm. cbn [mbind option_bind]. eexists. split; [reflexivity|]. cbn [dr_perm dr_poro dr_valid].
  assert (some_perm deck ∨ ¬ some_perm deck) as Hdec.
  { destruct (fill_ok deck [] Hs) as (t & km & _ & _ & H1 & H2). destruct (decide (length t = 1%nat)) as [Hl|Hl]; [right; intros H; specialize (H1 H); lia|].
    destruct (classify deck) eqn:Ec.
    all: destruct (has deck "PERMX") eqn:E1; [left; exists 0%nat, 0%nat; split; [lia|]; split; [lia|]; by apply has_iff|].
    all: destruct (has deck "PERMY") eqn:E2; [left; exists 1%nat, 1%nat; split; [lia|]; split; [lia|]; by apply has_iff|].
    all: destruct (has deck "PERMZ") eqn:E3; [left; exists 2%nat, 2%nat; split; [lia|]; split; [lia|]; by apply has_iff|].
    all: right; intros (i & j & Hi & Hj & Hij); assert (is_Some (deck (keyword i i))) as Hii; [destruct (decide (i = j)) as [->|Hne]; [done|by apply (Hs i j)]|].
    all: apply has_iff in Hii; destruct i as [|[|[|]]]; try lia; cbn [keyword] in Hii; congruence. }
  destruct Hdec as [Hd|Hd].
  - destruct (Hsome Hd) as [-> Hv]. split; [|split; [|split; [by split|]]].
    + intros c i j Hc Hi Hj. rewrite !Hv by done. f_equal. rewrite (given_sym deck j i).
      destruct (decide (i = j)) as [->|]; [by rewrite decide_True|]. by rewrite decide_False by congruence.
    + intros c i Hc Hi. rewrite Hv by done. rewrite decide_True by done. eexists. split; [reflexivity|]. apply Rmax_r.
    + intros c Hc. rewrite lookup_replicate_2 by done. by split.
  - destruct (Hnone Hd) as [-> ->]. split; [|split; [|split; [by split|]]].
    + intros c i j Hc Hi Hj. rewrite !lookup_replicate_2 by lia. done.
    + intros c i Hc Hi. rewrite lookup_replicate_2 by lia. eexists. split; [reflexivity|lra].
    + intros c Hc. rewrite lookup_replicate_2 by done. split; [intros [=]|done].
Qed.
Print Assumptions C67_symmetric.

(** Simple rock: one porosity, the same multiple of the identity in every cell. *)
Theorem C67_basic (dim nc : nat) (poro perm : R) : (0 < dim)%nat → ∃ k, rock_basic dim nc poro perm = Some (replicate nc poro, k) ∧
  length k = (nc * (dim * dim))%nat ∧
  ∀ c i j, (c < nc)%nat → (i < dim)%nat → (j < dim)%nat → k !! (c * (dim * dim) + i * dim + j)%nat = Some (if decide (i = j) then perm else 0).
Proof.
  intros Hd. unfold rock_basic.
  edestruct (for_loop_inv (λ n (k : list R), length k = (nc * (dim * dim))%nat ∧ ∀ c i j, (c < nc)%nat → (i < dim)%nat → (j < dim)%nat →
    k !! (c * (dim * dim) + i * dim + j)%nat = Some (if decide (i = j ∧ (c < n)%nat) then perm else 0)) nc 0) as (k & -> & Hlen & Hk).
  - split; [by rewrite replicate_length|]. intros c i j Hc Hi Hj. rewrite decide_False by lia. apply lookup_replicate_2. nia.
  - intros n k Hn [Hlen Hk].
    edestruct (for_loop_inv (λ d (k : list R), length k = (nc * (dim * dim))%nat ∧ ∀ c i j, (c < nc)%nat → (i < dim)%nat → (j < dim)%nat →
      k !! (c * (dim * dim) + i * dim + j)%nat = Some (if decide (i = j ∧ ((c < n)%nat ∨ c = n ∧ (i < d)%nat)) then perm else 0)) dim 0) as (k' & -> & Hlen' & Hk').
    + split; [done|]. intros c i j Hc Hi Hj. rewrite Hk by done. f_equal. apply decide_ext. lia.
    + intros d k' Hd' [Hlen' Hk']. rewrite upd_Some by nia. eexists. split; [reflexivity|]. split; [by rewrite insert_length|].
      intros c i j Hc Hi Hj. destruct (decide (c = n ∧ i = d ∧ j = d)) as [(-> & -> & ->)|Hne].
      * replace (n * (dim * dim) + d * dim + d)%nat with (dim * dim * n + dim * d + d)%nat by lia. rewrite list_lookup_insert by nia. rewrite decide_True by lia. done.
      * rewrite list_lookup_insert_ne.
        { rewrite Hk' by done. f_equal. apply decide_ext. lia. }
        intros E. apply Hne. assert ((c * (dim * dim) + i * dim + j) / dim = (n * (dim * dim) + d * dim + d) / dim)%nat as E1 by (f_equal; lia).
        replace (c * (dim * dim) + i * dim + j)%nat with (j + (c * dim + i) * dim)%nat in E1 by lia.
        replace (n * (dim * dim) + d * dim + d)%nat with (d + (n * dim + d) * dim)%nat in E1 by lia.
        rewrite !Nat.div_add, !Nat.div_small in E1 by lia. cbn [Nat.add] in E1.
        assert (((c * dim + i) / dim = (n * dim + d) / dim)%nat) as E2 by (f_equal; lia).
        rewrite !Nat.div_add_l, !Nat.div_small in E2 by lia. assert (c = n) by lia. subst c. assert (i = d) by lia. subst i. split; [done|]. split; [done|]. nia.
    + eexists. split; [reflexivity|]. split; [done|]. intros c i j Hc Hi Hj. rewrite Hk' by done. f_equal. apply decide_ext. lia.
  - cbn [mbind option_bind]. eexists. split; [reflexivity|]. split; [done|]. intros c i j Hc Hi Hj. rewrite Hk by done. f_equal. apply decide_ext. lia.
Qed.
Print Assumptions C67_basic.

(** PERMX, PERMZ and both PERMXZ and PERMZX on a box of two cells of which the
    grid has one. *)
Definition ex_deck (k : string) : option (list R) :=
  if String.eqb k "PERMX" then Some [2; 3] else if String.eqb k "PERMZ" then Some [5; -7]
  else if String.eqb k "PERMXZ" then Some [1; 1] else if String.eqb k "PERMZX" then Some [1/2; 1/4] else None.
Example ex_deck_ok : structured ex_deck ∧ full ex_deck (2 * 1 * 1) ∧ mapped (Some [1%nat]) 1 (2 * 1 * 1) ∧ some_perm ex_deck.
Proof.
  split; [|split; [|split]].
  - intros i j Hi Hj Hij. destruct i as [|[|[|]]]; try lia; destruct j as [|[|[|]]]; try lia; vm_compute; intros [x H]; (split; eauto) || discriminate.
  - intros i j l Hi Hj. destruct i as [|[|[|]]]; try lia; destruct j as [|[|[|]]]; try lia; cbn [keyword]; cbn [ex_deck String.eqb Ascii.eqb Bool.eqb]; intros [=]; subst; done.
  - split; [done|]. intros c Hc. assert (c = 0%nat) as -> by lia. cbn. lia.
  - exists 0%nat, 0%nat. split; [lia|]. split; [lia|]. vm_compute. eauto.
Qed.
Example ex_deck_perm : ∃ perm v, assign_permeability ex_deck (2, 1, 1)%nat (Some [1%nat]) 1 0 [false] = Some (perm, v) ∧ perm = [3; 0; 1/4; 0; 3; 0; 1/4; 0; 0] ∧ v = [true].
Proof.
  destruct ex_deck_ok as (H1 & H2 & H3 & H4).
  destruct (C67_permeability ex_deck 2 1 1 (Some [1%nat]) 1 0 [false] ltac:(lia) H1 H2 H3 eq_refl) as (perm & v & E & Hl & Hs & _).
  destruct (Hs H4) as [-> Hv]. exists perm, [true]. split; [done|]. split; [|done].
  assert (Rmax 3 0 = 3) as M3 by (rewrite Rmax_left; lra). assert (Rmax (-7) 0 = 0) as M7 by (rewrite Rmax_right; lra).
  destruct perm as [|a0 [|a1 [|a2 [|a3 [|a4 [|a5 [|a6 [|a7 [|a8 [|]]]]]]]]]]; try discriminate.
  pose proof (Hv 0 0 0)%nat as V0. pose proof (Hv 0 0 1)%nat as V1. pose proof (Hv 0 0 2)%nat as V2. pose proof (Hv 0 1 0)%nat as V3. pose proof (Hv 0 1 1)%nat as V4.
  pose proof (Hv 0 1 2)%nat as V5. pose proof (Hv 0 2 0)%nat as V6. pose proof (Hv 0 2 1)%nat as V7. pose proof (Hv 0 2 2)%nat as V8.
  specialize (V0 ltac:(lia) ltac:(lia) ltac:(lia)). specialize (V1 ltac:(lia) ltac:(lia) ltac:(lia)). specialize (V2 ltac:(lia) ltac:(lia) ltac:(lia)).
  specialize (V3 ltac:(lia) ltac:(lia) ltac:(lia)). specialize (V4 ltac:(lia) ltac:(lia) ltac:(lia)). specialize (V5 ltac:(lia) ltac:(lia) ltac:(lia)).
  specialize (V6 ltac:(lia) ltac:(lia) ltac:(lia)). specialize (V7 ltac:(lia) ltac:(lia) ltac:(lia)). specialize (V8 ltac:(lia) ltac:(lia) ltac:(lia)).
  clear E Hs Hv.
  change (Some a0 = Some (Rmax 3 0)) in V0. change (Some a1 = Some (0)) in V1. change (Some a2 = Some (1/4)) in V2. change (Some a3 = Some (0)) in V3. change (Some a4 = Some (Rmax 3 0)) in V4. change (Some a5 = Some (0)) in V5. change (Some a6 = Some (1/4)) in V6. change (Some a7 = Some (0)) in V7. change (Some a8 = Some (Rmax (-7) 0)) in V8. rewrite M3 in V0, V4. rewrite M7 in V8.
  injection V0 as ->; injection V1 as ->; injection V2 as ->; injection V3 as ->; injection V4 as ->; injection V5 as ->; injection V6 as ->; injection V7 as ->; injection V8 as ->. done.
Qed.

(** Off the diagonal a deck may give two different values for the same pair:
    it is not refused, the upper triangle is dropped. *)
Theorem C67_conflict_refuted : ∃ deck perm v, structured deck ∧ full deck 2 ∧
  (∃ a b, deck (keyword 0 2) = Some a ∧ deck (keyword 2 0) = Some b ∧ a ≠ b) ∧
  assign_permeability deck (2, 1, 1)%nat (Some [1%nat]) 1 0 [false] = Some (perm, v).
Proof.
  destruct ex_deck_ok as (H1 & H2 & _). destruct ex_deck_perm as (perm & v & E & _). exists ex_deck, perm, v. split; [done|]. split; [done|]. split; [|done].
  exists [1; 1], [1/2; 1/4]. split; [done|]. split; [done|]. intros [=]. lra.
Qed.
Print Assumptions C67_conflict_refuted.
