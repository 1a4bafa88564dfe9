(** The assembled system and the reported fluxes. *)
From Coq Require Import Reals Lra.
From stdpp Require Import sorting.
From Verif Require Import Base LoopModel LoopProof CsrSpec CsrModel CsrProof CsrProps GridModel GridSpec TableModel TofSpec TofProof
  AccModel AccProof HalfProof WellsModel IfsModel IfsSpec IfsProof IfsOps IfsBal.
Local Open Scope R_scope.
Unset Default Proof Using.

Section sol.
Context {name_t : Type}.
Context (bsearch : nat → list nat → option nat) (Hbs : bsearch_contract bsearch).
Context (g : ugrid) (cf : list (list nat)) (Hg : grid_ok g cf).
Context (A : csr) (wrows : list (list nat)) (ja : list nat) (rows : list (list nat)) (Hp : pattern g A wrows ja rows).
Context (trans gpress : list R) (Ht : length trans = u_nf g) (Hgp : length gpress = length (u_cellfaces g)).
Notation nc := (u_nc g).
Notation T f := (default 0 (trans !! f)).
Notation fc1 f := (default (-1)%Z (u_facecells g !! (2 * f)%nat)).
Notation fc2 f := (default (-1)%Z (u_facecells g !! (2 * f + 1)%nat)).
Notation face i := (default 0%nat (u_cellfaces g !! i)).

(** ** The gravity term *)
Definition grav_kv (ci : nat * nat) : list (nat * R) :=
  let f := face ci.2 in
  if bool_decide (0 <= fc1 f)%Z && bool_decide (0 <= fc2 f)%Z then [(f, sgn (fc1 f) ci.1 * default 0 (gpress !! ci.2))] else [].
Definition gravity (G : list R) : Prop :=
  length G = u_nf g ∧
  (∀ f a b, face_between g f a b → (a < 0)%Z ∨ (b < 0)%Z → G !! f = Some 0) ∧
  (∀ f a b i j, face_between g f (Z.of_nat a) (Z.of_nat b) → half g a f i → half g b f j →
    G !! f = Some (default 0 (gpress !! i) - default 0 (gpress !! j))).
Lemma grav_ok fgrav : length fgrav = u_nf g → ∃ G, compute_grav_term g gpress fgrav = Some G ∧ gravity G.
Proof.
  intros Hl. unfold compute_grav_term. rewrite vector_zero_ok by done. cbn [mbind option_bind].
  rewrite <- (ok_cells _ _ Hg). rewrite (csr_loop_run _ cf _ _ _ (ok_rows _ _ Hg)).
  rewrite (run_accs _ grav_kv).
  2: { intros [c i] s Hi. cbn [fst snd]. destruct (half_lt g cf Hg c i Hi) as [_ Hil].
       destruct (half_neighbour g cf Hg c i Hi) as (f & a & b & Hf & Hlt & [Ea Eb] & _).
       destruct (lookup_lt_is_Some_2 gpress i) as [p Ep]; [lia|].
       unfold grav_body, grav_kv. cbn [fst snd]. rewrite Hf, Ep. cbn [mbind option_bind default from_option]. unfold Datatypes.id. rewrite Ea, Eb.
       cbn [mbind option_bind default from_option]. unfold Datatypes.id. destruct (_ && _); [|done].
       cbn [accs fst snd]. by destruct (addto s f (sgn a c * p)). }
  destruct (accs_ok (replicate (u_nf g) 0) (concat (map grav_kv (halves 0 0 cf)))) as [G EG].
  { intros k v Hin. rewrite replicate_length. apply elem_of_list_In, in_concat in Hin as (kvs & Hk & Hin). rewrite <- elem_of_list_In in Hk. rewrite <- elem_of_list_In in Hin.
    change (map grav_kv (halves 0 0 cf)) with (grav_kv <$> halves 0 0 cf) in Hk. apply elem_of_list_fmap in Hk as ([c i] & -> & Hi).
    destruct (half_neighbour g cf Hg c i Hi) as (f & a & b & Hf & Hlt & _).
    unfold grav_kv in Hin. cbn [fst snd] in Hin. rewrite Hf in Hin. cbn [default from_option] in Hin. unfold Datatypes.id in Hin.
    destruct (_ && _); [|by apply elem_of_nil in Hin]. apply elem_of_list_singleton in Hin as [= -> ->]. done. }
  exists G. split; [done|]. destruct (accs_inv _ _ _ EG) as [HlG HG].
  assert (Hval : ∀ f, (f < u_nf g)%nat → G !! f = Some (rsum (λ ci, if decide (u_cellfaces g !! ci.2 = Some f) then
    (if bool_decide (0 <= fc1 f)%Z && bool_decide (0 <= fc2 f)%Z then sgn (fc1 f) ci.1 * default 0 (gpress !! ci.2) else 0) else 0) (halves 0 0 cf))).
  { intros f Hf. rewrite HG. rewrite lookup_replicate_2 by done. cbn [fmap option_fmap option_map]. f_equal. rewrite tally_concat, Rplus_0_l.
    apply rsum_ext. intros [c i] Hi. cbn [fst snd]. destruct (half_neighbour g cf Hg c i Hi) as (f' & a & b & Hf' & Hlt' & _).
    unfold grav_kv. cbn [fst snd]. rewrite Hf'. cbn [default from_option]. unfold Datatypes.id. destruct (decide (Some f' = Some f)) as [[= ->]|Hn].
    - destruct (_ && _); [|done]. rewrite tally_cons, tally_nil, decide_True by done. lra.
    - destruct (_ && _); [|done]. rewrite tally_cons, tally_nil, decide_False by congruence. lra. }
  split_and!.
  - by rewrite HlG, replicate_length.
  - intros f a b [Ea Eb] Hab. rewrite Hval by (apply lookup_lt_Some in Ea; rewrite (ok_faces _ _ Hg) in Ea; lia).
    rewrite Ea, Eb. cbn [default from_option]. unfold Datatypes.id. f_equal. apply rsum_zero. intros ci _. destruct (decide _); [|done].
    destruct Hab; [rewrite bool_decide_eq_false_2 by lia; done|rewrite (bool_decide_eq_false_2 (0 <= b)%Z) by lia; by rewrite andb_false_r].
  - intros f a b i j Hf Hi Hj. pose proof Hf as [Ea Eb]. rewrite Hval by (by eapply half_face_lt).
    rewrite (rsum_face_two g cf Hg (λ ci, if bool_decide (0 <= fc1 f)%Z && bool_decide (0 <= fc2 f)%Z then sgn (fc1 f) ci.1 * default 0 (gpress !! ci.2) else 0) f a b i j Hf Hi Hj).
    cbn [fst snd]. pose proof (ok_range _ _ Hg _ _ _ Hf) as (_ & _ & Hne). destruct (neighbour_fst g _ _ _ Hf) as [_ ->].
    destruct (neighbour_snd g _ _ _ Hf ltac:(lia)) as [_ ->].
    rewrite Ea, Eb. cbn [default from_option]. unfold Datatypes.id. rewrite !bool_decide_eq_true_2 by lia. cbn [andb]. f_equal. lra.
Qed.

(** ** Assembly *)
Context (F : option (forces name_t)) (ds : list demand) (l : list bcitem) (HF : forces_ok g wrows F ds l).
Definition wopsF : list op :=
  match F with
  | Some F => match F_W F, F_totmob F, F_wdp F with Some W, Some mt, Some wdp => all_ops g wrows W ds mt wdp (length ds) | _, _, _ => [] end
  | None => []
  end.
Definition bopsF (G : list R) : list op := concat (map (bc_ops g trans G) (bcs l)).
Definition sopsF : list op := match F with Some F => match F_src F with Some src => src_ops g src | None => [] end | None => [] end.
Definition opsF (G : list R) : list op := concat (map (face_ops g trans G) (halves 0 0 cf)) ++ wopsF ++ bopsF G ++ sopsF.
Definition free : bool := forallb (λ it, not_press it.1.1) l && forallb (λ d, negb (is_press d)) ds.

Notation HExecs := (execs_ok bsearch Hbs A ja rows (pt_ja _ _ _ _ _ Hp) (pt_rows _ _ _ _ _ Hp) (λ i r H, proj1 (pt_coup _ _ _ _ _ Hp i r H))).

Lemma wopsF_valid : Forall (valid rows) wopsF.
Proof.
  unfold wopsF. destruct F as [F'|]; [|done]. destruct (F_W F') as [W|] eqn:EW; [|done].
  destruct (F_totmob F') as [mt|] eqn:Emt; [|done]. destruct (F_wdp F') as [wdp|] eqn:Ewdp; [|done].
  destruct HF as (HW & _). rewrite EW, Emt, Ewdp in HW. destruct HW as (Hw & mt' & wdp' & [= <-] & [= <-] & H1 & H2).
  unfold all_ops. apply Forall_concat, Forall_forall. intros ops Hops. apply elem_of_list_In, elem_of_list_In in Hops.
  apply elem_of_list_lookup in Hops as [w Hops]. rewrite list_lookup_imap in Hops. destruct (take (length ds) ds !! w) as [d|] eqn:E; [|done].
  injection Hops as <-. eapply well_ops_valid; try done. apply lookup_lt_Some in E. rewrite take_length in E. rewrite <- (wk_len _ _ _ _ Hw). lia.
Qed.
Lemma opsF_valid G : Forall (valid rows) (opsF G).
Proof.
  unfold opsF. apply Forall_app. split; [|apply Forall_app; split; [apply wopsF_valid|apply Forall_app; split]].
  - apply Forall_concat, Forall_map, Forall_forall. intros ci Hci. eapply face_ops_valid; done.
  - unfold bopsF. apply Forall_concat, Forall_map, Forall_forall. intros e He.
    destruct F as [F'|]; [|destruct HF as [_ ->]; by apply elem_of_nil in He].
    destruct HF as (_ & Hb & _). destruct (F_bc F') as [bc|]; [|subst l; by apply elem_of_nil in He].
    by eapply bc_ops_valid.
  - unfold sopsF. destruct F as [F'|]; [|done]. destruct (F_src F'); [|done]. by eapply src_ops_valid.
Qed.

Lemma assembled fgrav s : length fgrav = u_nf g → sized ja rows s → ∃ G s' ok,
  assemble_incompressible bsearch g A trans gpress F fgrav s = Some (G, s', free, ok) ∧ gravity G ∧ sized ja rows s' ∧
  ok = forallb supported ds ∧
  (ok = true → (∀ i j, mat A (s_sa s') i j = oa (opsF G) i j) ∧ ∀ k, (k < a_m A)%nat → s_b s' !! k = Some (ob (opsF G) k)).
Proof.
  intros Hfl [Hs1 Hs2]. unfold assemble_incompressible. pose proof (pt_len _ _ _ _ _ Hp) as Hlen. pose proof (pt_m _ _ _ _ _ Hp) as Hm.
  rewrite (pt_nnz _ _ _ _ _ Hp). rewrite (vector_zero_ok (length ja)) by done. rewrite (vector_zero_ok (a_m A)) by lia. cbn [mbind option_bind].
  destruct (grav_ok fgrav Hfl) as (G & -> & HG). cbn [mbind option_bind]. destruct HG as (HG1 & HG2 & HG3).
  set (s0 := Sys (replicate (length ja) 0) (replicate (a_m A) 0)).
  assert (Hs0 : sized ja rows s0) by (split; cbn; rewrite replicate_length; lia).
  rewrite (assemble_faces_ops bsearch Hbs g cf Hg A wrows ja rows Hp trans Ht G s0 HG1).
  set (fops := concat (map (face_ops g trans G) (halves 0 0 cf))).
  assert (Hfv : Forall (valid rows) fops) by (pose proof (opsF_valid G) as H; unfold opsF in H; by apply Forall_app in H as [? _]).
  destruct (HExecs fops s0 Hfv Hs0) as (s1 & E1 & Hsz1 & HA1 & HB1). rewrite E1. cbn [mbind option_bind].
  assert (Hfin : ∀ ops' s', Forall (valid rows) ops' → run (exec bsearch A) ops' s1 = Some s' → sized ja rows s' ∧
    (opsF G = fops ++ ops' → (∀ i j, mat A (s_sa s') i j = oa (opsF G) i j) ∧ ∀ k, (k < a_m A)%nat → s_b s' !! k = Some (ob (opsF G) k))).
  { intros ops' s' Hv E. destruct (HExecs ops' s1 Hv Hsz1) as (s2 & E2 & Hsz2 & HA2 & HB2). rewrite E in E2. injection E2 as <-.
    split; [done|]. intros ->. split.
    - intros i j. rewrite HA2, HA1, oa_app. unfold s0. cbn [s_sa]. rewrite mat_zero. lra.
    - intros k Hk. rewrite HB2, HB1, ob_app. unfold s0. cbn [s_b]. rewrite lookup_replicate_2 by done. cbn [fmap option_fmap option_map]. f_equal. lra. }
  assert (HVall := opsF_valid G). assert (Hbz : ∀ w, (w < length wrows)%nat → s_b s1 !! (nc + w)%nat = Some 0).
  { intros w Hw. rewrite HB1. unfold s0. cbn [s_b]. rewrite lookup_replicate_2 by lia. cbn [fmap option_fmap option_map]. f_equal.
    unfold ob, fops. rewrite rsum_concat, rsum_map, rsum_zero; [lra|]. intros [c i] Hi. destruct (half_lt g cf Hg c i Hi) as [Hc _].
    unfold face_ops. cbn [fst snd rsum ob1]. rewrite decide_False by lia. destruct (decide _); cbn [rsum ob1]; lra. }
  destruct F as [F'|] eqn:EF.
  2: { destruct HF as [Hds Hll]. exists G, s1, true. split; [unfold free; rewrite Hds, Hll; done|]. destruct (Hfin [] s1) as [H1 H2]; [done..|].
       split; [done|]. split; [done|]. split; [by rewrite Hds|]. intros _. apply H2. unfold opsF, wopsF, bopsF, sopsF. rewrite EF, Hll. done. }
  destruct HF as (HW & Hb & Hsrc).
  (* wells *)
  assert (∃ s2 ok wo, match F_W F', F_totmob F', F_wdp F' with
      | Some W, Some mt, Some wdp => if decide (a_m A = nc + w_nw W)%nat then assemble_wells bsearch g A W mt wdp s1 else None
      | _, _, _ => Some (true, true, s1) end = Some (forallb (λ d, negb (is_press d)) ds, ok, s2) ∧
    run (exec bsearch A) wo s1 = Some s2 ∧ Forall (valid rows) wo ∧ ok = forallb supported ds ∧ (ok = true → wo = wopsF)) as (s2 & ok & wo & EW & ERW & HVW & Hok & Hwo).
  { unfold wopsF. rewrite EF. destruct (F_W F') as [W|] eqn:EW.
    - destruct HW as (Hw & mt & wdp & Emt & Ewdp & Hmt & Hwdp). rewrite Emt, Ewdp. rewrite decide_True by (rewrite Hm, (wk_nw _ _ _ _ Hw); done).
      destruct (assemble_wells_ops bsearch Hbs g A wrows ja rows Hp trans Ht W ds Hw mt wdp Hmt Hwdp s1 Hsz1 Hbz) as (ok & s2 & wo & E & H1 & H2 & H3 & H4).
      exists s2, ok, wo. done.
    - rewrite HW. exists s1, true, []. done. }
  rewrite EW. cbn [mbind option_bind].
  destruct (HExecs wo s1 HVW Hsz1) as (s2' & E2 & Hsz2 & _). rewrite ERW in E2. injection E2 as <-.
  (* boundary conditions *)
  assert (∃ s3, match F_bc F' with Some bc => assemble_bc bsearch g A trans G bc s2 | None => Some (true, s2) end
    = Some (forallb (λ it, not_press it.1.1) l, s3) ∧ run (exec bsearch A) (bopsF G) s2 = Some s3) as (s3 & EB & ERB).
  { destruct (F_bc F') as [bc|].
    - apply (assemble_bc_ops bsearch Hbs g cf Hg A wrows ja rows Hp trans Ht bc l Hb G HG1 s2 Hsz2).
    - unfold bopsF. rewrite Hb. exists s2. done. }
  rewrite EB. cbn [mbind option_bind].
  assert (HVB : Forall (valid rows) (bopsF G) ∧ Forall (valid rows) sopsF).
  { unfold opsF in HVall. apply Forall_app in HVall as [_ H]. apply Forall_app in H as [_ H]. by apply Forall_app in H. }
  destruct HVB as [HVB HVS].
  destruct (HExecs _ s2 HVB Hsz2) as (s3' & E3 & Hsz3 & _). rewrite ERB in E3. injection E3 as <-.
  assert (∃ s4, match F_src F' with Some src => for_loop nc 0 (src_body src) s3 | None => Some s3 end = Some s4 ∧ run (exec bsearch A) sopsF s3 = Some s4) as (s4 & ES & ERS).
  { destruct (HExecs _ s3 HVS Hsz3) as (s4 & E4 & _). exists s4. split; [|done]. rewrite <- E4. unfold sopsF. rewrite EF. destruct (F_src F') as [src|]; [|done].
    by eapply assemble_src_ops. }
  rewrite ES. cbn [mbind option_bind].
  destruct (Hfin (wo ++ bopsF G ++ sopsF) s4) as [H1 H2].
  { apply Forall_app; split; [done|]. apply Forall_app. done. }
  { rewrite run_app, ERW. cbn [mbind option_bind]. rewrite run_app, ERB. done. }
  exists G, s4, ok. split; [done|]. split; [done|]. split; [done|]. split; [done|]. intros Hk. apply H2. unfold opsF. by rewrite (Hwo Hk).
Qed.

(** ** Fluxes *)
Lemma press_flux_ok G x cpress fflux wpress wflux : gravity G → length x = a_m A → length cpress = nc → length fflux = u_nf g →
  length wpress = length wrows → length wflux = length (concat wrows) →
  ∃ cp ff wp wf, press_flux g trans F G x cpress fflux (Some wpress) (Some wflux) = Some (cp, ff, Some wp, Some wf) ∧
    cp = take nc x ∧ fluxes g trans G (λ k, default 0 (x !! k)) l ff ∧ length wp = length wrows ∧ length wf = length (concat wrows) ∧
    match F with
    | Some F => match F_W F, F_totmob F, F_wdp F with
                | Some W, Some mt, Some wdp =>
                  (∀ w d, ds !! w = Some d → d ≠ Shut → wp !! w = x !! (nc + w)%nat) ∧
                  (∀ w i, (w, i) ∈ halves 0 0 wrows → wf !! i =
                    Some (match ds !! w with Some Shut => 0 | _ => PT W mt i * (default 0 (x !! (nc + w)%nat) + PD wdp i - default 0 (x !! pc W i)) end))
                | _, _, _ => wf = wflux ∧ wp = wpress
                end
    | None => wf = wflux ∧ wp = wpress
    end.
Proof.
  intros (HG1 & HG2 & HG3) Hx Hcp Hff Hwp Hwf. pose proof (pt_m _ _ _ _ _ Hp) as Hm. unfold press_flux.
  rewrite slice_Some by lia. cbn [mbind option_bind]. rewrite drop_0. 
  assert (memcpy cpress 0 (take nc x) = Some (take nc x)) as ->.
  { rewrite memcpy_Some by (rewrite take_length; lia). f_equal. cbn. rewrite drop_ge; [by rewrite app_nil_r|]. rewrite take_length. lia. }
  cbn [mbind option_bind]. set (cp := take nc x). set (X := λ k, default 0 (x !! k)).
  assert (HX : ∀ c, (c < nc)%nat → cp !! c = Some (X c)).
  { intros c Hc. unfold cp, X. rewrite lookup_take by done. destruct (lookup_lt_is_Some_2 x c) as [y ->]; [lia|]. done. }
  (* interior *)
  set (v0 := λ f, if bool_decide (0 <= fc1 f)%Z && bool_decide (0 <= fc2 f)%Z then T f * (X (Z.to_nat (fc1 f)) - X (Z.to_nat (fc2 f)) + default 0 (G !! f)) else 0).
  destruct (run_upd (flux_body g trans G cp) (λ f, f) v0 (u_nf g) (seq 0 (u_nf g)) fflux) as (ff0 & E0 & Hl0 & Hv0 & _).
  { intros f s Hf Hs. apply elem_of_seq in Hf. destruct (face_data g cf Hg f ltac:(lia)) as (a & b & Hab). pose proof (ok_range _ _ Hg _ _ _ Hab) as (Ra & Rb & _).
    destruct Hab as [Ea Eb]. unfold flux_body, v0. rewrite Ea, Eb. cbn [mbind option_bind default from_option]. unfold Datatypes.id.
    destruct (bool_decide (0 <= a)%Z) eqn:Ba; [apply bool_decide_eq_true in Ba|done]. destruct (bool_decide (0 <= b)%Z) eqn:Bb; [apply bool_decide_eq_true in Bb|done].
    cbn [andb]. rewrite !HX by lia. destruct (lookup_lt_is_Some_2 trans f) as [t ->]; [lia|]. destruct (lookup_lt_is_Some_2 G f) as [y ->]; [lia|]. done. }
  { intros f Hf. apply elem_of_seq in Hf. lia. }
  { rewrite map_id. apply NoDup_seq. }
  { done. }
  rewrite for_loop_run, E0. cbn [mbind option_bind].
  assert (Hf0 : ∀ f, (f < u_nf g)%nat → ff0 !! f = Some (v0 f)) by (intros f Hf; apply (Hv0 f), elem_of_seq; lia).
  assert (Hfl0 : l = [] → fluxes g trans G X l ff0).
  { intros ->. split_and!; [done|..].
    - intros f a b [Ea Eb]. rewrite Hf0 by (apply lookup_lt_Some in Ea; rewrite (ok_faces _ _ Hg) in Ea; lia). unfold v0. rewrite Ea, Eb.
      cbn [default from_option]. unfold Datatypes.id. rewrite !bool_decide_eq_true_2 by lia. by rewrite !Nat2Z.id.
    - intros ty v f H. by apply elem_of_nil in H.
    - intros f a b [Ea Eb] Hab _. rewrite Hf0 by (apply lookup_lt_Some in Ea; rewrite (ok_faces _ _ Hg) in Ea; lia). unfold v0. rewrite Ea, Eb.
      cbn [default from_option]. unfold Datatypes.id. destruct Hab; [rewrite bool_decide_eq_false_2 by lia|rewrite (bool_decide_eq_false_2 (0 <= b)%Z) by lia; rewrite andb_false_r]; done. }
  destruct F as [F'|] eqn:EF.
  2: { destruct HF as [-> ->]. eexists cp, ff0, wpress, wflux. split; [done|]. split_and!; try done. by apply Hfl0. }
  destruct HF as (HW & Hb & _).
  (* boundary *)
  assert (∃ ff, match F_bc F' with Some bc => for_loop (fb_nbc bc) 0 (bflux_body g trans G cp bc) ff0 | None => Some ff0 end = Some ff ∧ fluxes g trans G X l ff) as (ff & EB & Hfl).
  { destruct (F_bc F') as [bc|]; [|exists ff0; split; [done|by apply Hfl0]].
    set (h := λ (e : bctype * R * nat) (s : list R), upd s e.2 (bsign g e.2 * bpart g trans G X e)).
    assert (for_loop (fb_nbc bc) 0 (bflux_body g trans G cp bc) ff0 = run h (bcs l) ff0) as ->.
    { rewrite (bk_n _ _ _ Hb), for_loop_run. unfold bcs. change (active <$> l) with (map active l). rewrite run_concat. apply run_seq_list.
      intros i it s Hit. cbn [Nat.add]. destruct (bk_item _ _ _ Hb i it Hit) as (Ety & Ev & b & Eb & Ee & Hfs).
      assert (Hin : it ∈ l) by (by eapply elem_of_list_lookup_2). unfold bflux_body. rewrite Ety. cbn [mbind option_bind].
      destruct it as [[ty v] fs]. cbn [fst snd] in *. destruct ty; [done|..].
      - rewrite Eb, Ee, Ev. cbn [mbind option_bind]. replace (b + length fs - b)%nat with (length fs) by lia. rewrite for_loop_run.
        unfold active. cbn [fst snd]. change ((λ f, (BC_PRESSURE, v, f)) <$> fs) with (map (λ f, (BC_PRESSURE, v, f)) fs). rewrite run_map.
        apply run_seq_list. intros t f s' Ef.
        assert (Hbin : (BC_PRESSURE, v, f) ∈ bcs l) by (apply (item_in l (BC_PRESSURE, v, fs)); [done..|]; by eapply elem_of_list_lookup_2).
        destruct (bc_face_ok g cf Hg bc l Hb _ _ _ (b + t) Hbin (Hfs t f Ef)) as (c1 & c2 & Ebf & Hlt & Hbc & Hsg).
        unfold bflux_press_body, h, bpart. rewrite Ebf. cbn [mbind option_bind fst snd]. destruct (lookup_lt_is_Some_2 trans f) as [tf Etf]; [lia|].
        destruct (lookup_lt_is_Some_2 G f) as [gf Egf]; [lia|]. rewrite Etf, Egf.
        destruct Hsg as [(-> & -> & ->)|(-> & -> & ->)].
        + rewrite decide_False by lia. rewrite Nat2Z.id, HX by lia. cbn [mbind option_bind default from_option]. unfold Datatypes.id. f_equal. lra.
        + rewrite decide_True by lia. rewrite Nat2Z.id, HX by lia. cbn [mbind option_bind default from_option]. unfold Datatypes.id. f_equal. lra.
      - rewrite Eb, Ee, Ev. cbn [mbind option_bind]. rewrite (bk_flux _ _ _ Hb _ _ Hin). rewrite decide_True by done. replace (b + 1 - b)%nat with 1%nat by lia.
        pose proof (bk_flux _ _ _ Hb _ _ Hin) as Hl1. destruct fs as [|f [|??]]; [done| |done].
        pose proof (Hfs 0%nat f eq_refl) as Hfb. rewrite Nat.add_0_r in Hfb.
        assert (Hbin : (BC_FLUX_TOTVOL, v, f) ∈ bcs l) by (apply (item_in l (BC_FLUX_TOTVOL, v, [f])); [done..|]; by left).
        destruct (bc_face_ok g cf Hg bc l Hb _ _ _ b Hbin Hfb) as (c1 & c2 & Ebf & Hlt & Hbc & Hsg).
        cbn [for_loop]. unfold bflux_flux_body. rewrite Ebf. cbn [mbind option_bind active fst snd fmap list_fmap run].
        unfold h, bpart. cbn [fst snd].
        assert ((if decide (c1 < 0)%Z then 1 else -1) * v = bsign g f * - v) as ->; [|done].
        destruct Hsg as [(-> & -> & ->)|(-> & -> & ->)]; [rewrite decide_False by lia|rewrite decide_True by lia]; lra. }
    destruct (run_upd h snd (λ e, bsign g e.2 * bpart g trans G X e) (u_nf g) (bcs l) ff0) as (ff & E & Hl & Hin & Hout).
    { done. }
    { intros [[ty v] f] He. by destruct (bc_ext g cf Hg bc l Hb _ _ _ He) as (? & ? & _ & ? & _). }
    { apply (bk_nodup _ _ _ Hb). }
    { done. }
    exists ff. split; [done|]. split_and!; [done|..].
    - intros f a b Hab. pose proof Hab as [Ea Eb]. rewrite Hout.
      + rewrite Hf0 by (apply lookup_lt_Some in Ea; rewrite (ok_faces _ _ Hg) in Ea; lia). unfold v0. rewrite Ea, Eb.
        cbn [default from_option]. unfold Datatypes.id. rewrite !bool_decide_eq_true_2 by lia. by rewrite !Nat2Z.id.
      + intros Hin'. change (map snd (bcs l)) with (snd <$> bcs l) in Hin'. apply elem_of_list_fmap in Hin' as ([[ty v] f'] & E' & He). cbn [snd] in E'. subst f'.
        destruct (bk_ext _ _ _ Hb _ _ _ He) as (c' & Hc1 & [[E3 E4]|[E3 E4]]); rewrite Ea in E3; rewrite Eb in E4; injection E3; injection E4; lia.
    - intros ty v f He. apply (Hin (ty, v, f) He).
    - intros f a b [Ea Eb] Hab Hn. rewrite Hout by done. rewrite Hf0 by (apply lookup_lt_Some in Ea; rewrite (ok_faces _ _ Hg) in Ea; lia). unfold v0. rewrite Ea, Eb.
      cbn [default from_option]. unfold Datatypes.id. destruct Hab; [rewrite bool_decide_eq_false_2 by lia|rewrite (bool_decide_eq_false_2 (0 <= b)%Z) by lia; rewrite andb_false_r]; done. }
  rewrite EB. cbn [mbind option_bind].
  destruct (F_W F') as [W|] eqn:EW.
  2: { exists cp, ff, wpress, wflux. split; [done|]. done. }
  destruct HW as (Hw & mt & wdp & Emt & Ewdp & Hmt & Hwdp). rewrite Emt, Ewdp. unfold well_solution. rewrite (wk_nw _ _ _ _ Hw).
  (* well pressures *)
  assert (∃ wp, for_loop (length wrows) 0 (wpress_body g W x) wpress = Some wp ∧ length wp = length wrows ∧
    ∀ w d, ds !! w = Some d → d ≠ Shut → wp !! w = x !! (nc + w)%nat) as (wp & -> & Hlp & Hwpv).
  { destruct (for_loop_each (λ w y, match ds !! w with Some Shut | None => Some y | _ => x !! (nc + w)%nat end) (wpress_body g W x) (length wrows) wpress) as (wp & E & Hl & Hv).
    - intros w s Hlt Hs. destruct (lookup_lt_is_Some_2 s w) as [y Ey]; [lia|]. rewrite Ey. cbn [mbind option_bind].
      destruct (lookup_lt_is_Some_2 ds w) as [d Hd]; [rewrite (wk_len _ _ _ _ Hw); lia|]. rewrite Hd.
      destruct (wk_ctrl _ _ _ _ Hw w d Hd) as (c & Ec & Hdem). unfold wpress_body. rewrite Ec. cbn [mbind option_bind]. unfold demand_of in Hdem.
      destruct (lookup_lt_is_Some_2 x (nc + w)) as [z Ez]; [lia|]. rewrite Ez.
      destruct (decide (c_current c < 0)%Z) as [Hc|Hc].
      + subst d. rewrite decide_False by lia. cbn [mbind option_bind]. rewrite upd_Some by lia. by rewrite list_insert_id.
      + rewrite decide_True by lia. cbn [mbind option_bind]. destruct Hdem as (ty & v & _ & _ & _ & _ & Hd'). destruct d; [|done..]. exfalso.
        destruct ty; [done|destruct Hd' as [[? _]|[? _]]; done|done].
    - done.
    - intros w y Hy. destruct (ds !! w) as [[]|]; eauto; apply lookup_lt_is_Some_2; apply lookup_lt_Some in Hy; lia.
    - exists wp. split; [done|]. split; [done|]. intros w d Hd Hns. destruct (lookup_lt_is_Some_2 wpress w) as [y Hy].
      { apply lookup_lt_Some in Hd. rewrite (wk_len _ _ _ _ Hw) in Hd. lia. }
      rewrite (Hv w y Hy). rewrite Hd. destruct d; done. }
  cbn [fmap option_fmap option_map mbind option_bind].
  (* well fluxes *)
  set (val := λ wi : nat * nat, match ds !! wi.1 with Some Shut => 0 | _ => PT W mt wi.2 * (X (nc + wi.1)%nat + PD wdp wi.2 - X (pc W wi.2)) end).
  assert (∃ wf, for_loop (length wrows) 0 (wflux_step g W mt wdp cp x) (0%nat, wflux) = Some (length (concat wrows), wf) ∧ length wf = length (concat wrows) ∧
    ∀ wi, wi ∈ halves 0 0 wrows → wf !! wi.2 = Some (val wi)) as (wf & -> & Hlf & Hwfv).
  { set (body := λ w i s, upd (A := R) s i (val (w, i))).
    rewrite (for_loop_ext _ _ _ (csr_step (w_connpos W) (λ w i s, bhp ← x !! (nc + w)%nat; p ← w_ctrls W !! w; c ← p;
       wflux_perf W mt wdp cp bhp (bool_decide (c_current c < 0)%Z) w i s))).
    2: { intros w s Hlt. unfold wflux_step, csr_step. destruct (lookup_lt_is_Some_2 x (nc + w)) as [z ->]; [lia|].
         destruct (lookup_lt_is_Some_2 ds w) as [d Hd]; [rewrite (wk_len _ _ _ _ Hw); lia|].
         destruct (wk_ctrl _ _ _ _ Hw w d Hd) as (c & Ec & Hdem). rewrite Ec. cbn [mbind option_bind]. done. }
    rewrite csr_loop_gen by (intros k Hk; cbn [Nat.add]; by eapply connpos_starts).
    rewrite (run_ext _ (λ wi s, upd s wi.2 (val wi))).
    2: { intros [w i] s Hi. cbn [fst snd]. pose proof Hi as Hi'. eapply perf_data in Hi as (r & c & wi & Hr & _ & Hlc & Hcell & Epc & Hwi & Hmc & EPT & Ed); [|done..].
         pose proof (lookup_lt_Some _ _ _ Hr). unfold val. cbn [fst snd].
         destruct (lookup_lt_is_Some_2 ds w) as [d Hd]; [rewrite (wk_len _ _ _ _ Hw); lia|]. rewrite Hd.
         destruct (wk_ctrl _ _ _ _ Hw w d Hd) as (c' & Ec & Hdem). rewrite Ec. unfold X.
         destruct (lookup_lt_is_Some_2 x (nc + w)) as [z Ez]; [lia|]. rewrite Ez. cbn [mbind option_bind].
         unfold wflux_perf. rewrite Hcell. cbn [mbind option_bind]. rewrite decide_True by lia. rewrite Nat2Z.id, Hmc, Hwi, Ed, HX by lia. cbn [mbind option_bind].
         unfold demand_of in Hdem. rewrite Epc, EPT. destruct (decide (c_current c' < 0)%Z) as [Hc|Hc].
         - subst d. rewrite bool_decide_eq_true_2 by done. done.
         - rewrite bool_decide_eq_false_2 by done. destruct Hdem as (ty & v & _ & _ & _ & _ & Hd').
           destruct d; [exfalso; destruct ty; [done|destruct Hd' as [[? _]|[? _]]; done|done]|..]; done. }
    destruct (run_upd (λ wi s, upd s wi.2 (val wi)) snd val (length (concat wrows)) (halves 0 0 wrows) wflux) as (wf & E & Hl & Hin & _).
    { done. }
    { intros [w i] Hi. assert (i ∈ (halves 0 0 wrows).*2) as Hi' by (apply elem_of_list_fmap; by exists (w, i)).
      rewrite halves_snd in Hi'. apply elem_of_seq in Hi'. cbn. lia. }
    { change (map snd (halves 0 0 wrows)) with ((halves 0 0 wrows).*2). rewrite halves_snd. apply NoDup_seq. }
    { done. }
    exists wf. rewrite E. done. }
  cbn [fmap option_fmap option_map mbind option_bind snd].
  exists cp, ff, wp, wf. split; [done|]. split_and!; try done. intros w i Hi. apply (Hwfv (w, i) Hi).
Qed.
End sol.
