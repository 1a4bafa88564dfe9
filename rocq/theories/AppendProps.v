(** C20: boundary conditions and sources are recorded in order, also when memory
    runs out. *)
From Verif Require Import Base AppendModel AppendSpec AppendProof.

(** ** Flow boundary conditions: safe under every pattern of failures *)
Section flow.
Context {V T : Type}.
Variables (jt : T) (jv : V) (jn : nat) (jz : Z).
Inductive bop := BAppend (b : bc V T) | BClear.
(** The program: a list of calls; each append reports success or failure. *)
Fixpoint brun (ops : list bop) (s : fbc V T) (o : list bool) : option (list bool * fbc V T * list bool) :=
  match ops with
  | [] => Some ([], s, o)
  | BAppend b :: ops =>
      '(ok, s, o) ← fbc_append jt jv jn jz (bc_type b) (bc_faces b) (bc_value b) s o;
      '(rs, s, o) ← brun ops s o; Some (ok :: rs, s, o)
  | BClear :: ops => '(rs, s, o) ← brun ops (fbc_clear s) o; Some (true :: rs, s, o)
  end.
(** What should be recorded, given which calls reported success. *)
Fixpoint brecorded (ops : list bop) (rs : list bool) (acc : list (bc V T)) : list (bc V T) :=
  match ops, rs with
  | BAppend b :: ops, r :: rs => brecorded ops rs (if r : bool then acc ++ [b] else acc)
  | BClear :: ops, _ :: rs => brecorded ops rs []
  | _, _ => acc
  end.
Theorem C20_flow_conditions n o :
  ∃ r o1, fbc_construct jt jv jn jz n o = Some (r, o1) ∧
    ∀ s, r = Some s → ∀ ops, ∃ rs s' o2, brun ops s o1 = Some (rs, s', o2) ∧ length rs = length ops ∧
      holds_bcs s' (brecorded ops rs []) ∧ fbc_destroy s' = Some tt.
Proof.
  destruct (construct_ok jt jv jn jz n o) as (r & o1 & E & Hr). exists r, o1. split; [done|]. intros s -> ops.
  destruct Hr as (HI & HH & _). revert s o1 HI HH E. generalize (@nil (bc V T)) as acc.
  intros acc s o1 HI HH _. revert s o1 acc HI HH. induction ops as [|[b|] ops IH]; intros s o1 acc HI HH.
  - exists [], s, o1. split_and!; [done|done|done|]. by apply inv_destroy.
  - cbn [brun]. destruct (append_ok jt jv jn jz (bc_type b) (bc_faces b) (bc_value b) s o1 acc HI HH) as (ok & s1 & o2 & E & HI1 & HH1).
    rewrite E. cbn [mbind option_bind].
    assert (HH2 : holds_bcs s1 (if ok then acc ++ [b] else acc)) by (destruct b, ok; done).
    destruct (IH s1 o2 _ HI1 HH2) as (rs & s' & o3 & E' & Hl & Hh & Hd). rewrite E'. cbn [mbind option_bind].
    exists (ok :: rs), s', o3. split_and!; [done|simpl; congruence|done|done].
  - cbn [brun]. destruct (clear_ok s HI) as [HI1 HH1]. destruct (IH _ o1 _ HI1 HH1) as (rs & s' & o3 & E' & Hl & Hh & Hd).
    rewrite E'. cbn [mbind option_bind]. exists (true :: rs), s', o3. split_and!; [done|simpl; congruence|done|done].
Qed.

(** Without failures everything is recorded. *)
Lemma next_true o : Forall (eq true) o → fst (next_alloc o) = true ∧ Forall (eq true) (snd (next_alloc o)).
Proof. destruct 1; simpl; auto. Qed.
Lemma expand_true n nf s o ok s' o' : Forall (eq true) o → expand_tables jt jv jn jz n nf s o = Some (ok, s', o') → ok = true ∧ Forall (eq true) o'.
Proof.
  intros Ho. unfold expand_tables.
  assert (B : ∀ A (j : A) n b o r o', Forall (eq true) o → brealloc j n b o = Some (r, o') → got r = true ∧ Forall (eq true) o').
  { clear. intros A j n b o r o' Ho. destruct (next_true o Ho) as [E1 E2]. unfold brealloc.
    destruct b; [..|done]; destruct (next_alloc o); simpl in *; subst; intros; simplify_eq; done. }
  set (first := if decide (n ≤ f_ccpty s) then _ else _).
  assert (F : ∀ okc s1 o1, first = Some (okc, s1, o1) → okc = true ∧ Forall (eq true) o1).
  { subst first. destruct (decide _); [intros; by simplify_eq|]. cbv zeta. intros okc s1 o1 H.
    destruct (brealloc _ _ _ o) as [[p1 o2]|] eqn:E1; [|done]. cbn [mbind option_bind] in H. apply B in E1 as [G1 Ho1]; [|done].
    destruct (brealloc _ _ _ o2) as [[p2 o3]|] eqn:E2; [|done]. cbn [mbind option_bind] in H. apply B in E2 as [G2 Ho2]; [|done].
    destruct (brealloc _ _ _ o3) as [[p3 o4]|] eqn:E3; [|done]. cbn [mbind option_bind] in H. apply B in E3 as [G3 Ho3]; [|done].
    cbv zeta in H. rewrite G1, G2, G3 in H. by simplify_eq. }
  destruct first as [[[okc s1] o1]|]; [|done]. cbn [mbind option_bind]. destruct (F _ _ _ eq_refl) as [-> Ho1].
  set (second := if decide (nf ≤ f_fcpty s1) then _ else _).
  assert (G : ∀ okf s2 o2, second = Some (okf, s2, o2) → okf = true ∧ Forall (eq true) o2).
  { subst second. destruct (decide _); [intros; by simplify_eq|]. cbv zeta. intros okf s2 o2 H.
    destruct (brealloc _ _ _ o1) as [[p1 o3]|] eqn:E1; [|done]. cbn [mbind option_bind] in H. apply B in E1 as [G1 Ho2]; [|done].
    cbv zeta in H. rewrite G1 in H. by simplify_eq. }
  destruct second as [[[okf s2] o2]|]; [|done]. cbn [mbind option_bind]. destruct (G _ _ _ eq_refl) as [-> Ho2]. intros. by simplify_eq.
Qed.
Theorem C20_flow_conditions_succeed ops s o rs s' o' : Forall (eq true) o →
  brun ops s o = Some (rs, s', o') → rs = replicate (length ops) true.
Proof.
  revert s o rs. induction ops as [|[b|] ops IH]; intros s o rs Ho E; cbn [brun] in E.
  - by simplify_eq.
  - unfold fbc_append in E. cbv zeta in E.
    destruct (deref (f_pos s)) as [pos|]; [|done]. cbn [mbind option_bind] in E. destruct (pos !! f_nbc s) as [p|]; [|done]. cbn [mbind option_bind] in E.
    destruct (expand_tables _ _ _ _ _ _ _ _) as [[[ok s1] o1]|] eqn:E1; [|done]. cbn [mbind option_bind] in E.
    apply expand_true in E1 as [-> Ho1]; [|done].
    destruct (deref (f_pos s1)) as [pos1|]; [|done]. cbn [mbind option_bind] in E. destruct (pos1 !! f_nbc s) as [p1|]; [|done]. cbn [mbind option_bind] in E.
    destruct (putn _ _ _) as [face|]; [|done]. cbn [mbind option_bind] in E. destruct (put1 (f_type s1) _ _) as [ty|]; [|done]. cbn [mbind option_bind] in E.
    destruct (put1 (f_value s1) _ _) as [vl|]; [|done]. cbn [mbind option_bind] in E. destruct (put1 (f_pos s1) _ _) as [ps|]; [|done]. cbn [mbind option_bind] in E.
    destruct (brun ops _ o1) as [[[rs1 s2] o2]|] eqn:E2; [|done]. cbn [mbind option_bind] in E. simplify_eq. simpl. f_equal. by eapply IH.
  - destruct (brun ops _ o) as [[[rs1 s2] o2]|] eqn:E2; [|done]. cbn [mbind option_bind] in E. simplify_eq. simpl. f_equal. by eapply IH.
Qed.
End flow.
Print Assumptions C20_flow_conditions.
Print Assumptions C20_flow_conditions_succeed.
(** A failure in the middle loses nothing: the third call fails, the fourth works. *)
Example C20_flow_example :
  (let b1 := Bc 1 10 [4;5]%Z in let b2 := Bc 2 20 [6]%Z in let b3 := Bc 3 30 []%Z in let b4 := Bc 4 40 [7;8;9]%Z in
   '(r, o) ← fbc_construct 0 0 77 (-9)%Z 1 [true; true; true; true; true; true;
                                           true; true; true; true; true; false; true];
   s ← r;
   '(rs, s, o) ← brun 0 0 77 (-9)%Z [BAppend b1; BAppend b2; BAppend b3; BAppend b4] s o;
   Some (rs, take (f_nbc s) (contents (f_type s)), take (f_nbc s + 1) (contents (f_pos s)), take 6 (contents (f_face s))))
  = Some ([true; true; false; true], [1; 2; 4], [0; 2; 3; 6], [4; 5; 6; 7; 8; 9]%Z).
Proof. vm_compute. reflexivity. Qed.

(** ** Transport sources *)
Section transport.
Context {V : Type}.
Variables (jz : Z) (jv : V).
(** Creating a source table never fails badly. *)
Theorem C20_transport_create nsrc np o : ∃ r o1, ts_create jz jv nsrc np o = Some (r, o1) ∧
  (np = 0 → r = None) ∧ ∀ s, r = Some s → ts_inv s ∧ holds_terms s [] ∧ s_np s = np ∧ nsrc ≤ s_cpty s ∧ ts_destroy s = Some tt.
Proof.
  unfold ts_create. destruct (decide (np = 0)) as [Hnp|Hnp]; [by exists None, o|].
  destruct (next_alloc o) as [[] o1]; [|by exists None, o1].
  set (s0 := TSrc 0 0 np Null Null Null Null Null).
  assert (HI : ts_inv s0) by (constructor; simpl; try done; lia).
  assert (HD : ∀ s : @tsrc V, ts_inv s → ts_destroy s = Some tt).
  { intros s [_ _ c p f sa z]. unfold ts_destroy. by rewrite (blk_free _ _ _ c), (blk_free _ _ _ p), (blk_free _ _ _ f), (blk_free _ _ _ sa), (blk_free _ _ _ z). }
  destruct (decide (0 < nsrc)) as [Hn|Hn].
  - destruct (ts_expand_spec jz jv nsrc s0 o1 HI ltac:(simpl; lia) Hn) as (st & s' & E & H). rewrite E. cbn [mbind option_bind].
    destruct (forallb id (outs 5 o1)).
    + destruct H as (-> & HI' & Hs & Hc). rewrite decide_False by lia. eexists (Some s'), _. split; [done|]. split; [done|].
      intros ? [= <-]. destruct Hs as (N & P & _). split_and!; [done|split; [done|done]|done|lia|auto].
    + destruct H as (-> & _ & _ & _ & H). rewrite decide_True in H by (by left). subst s'. rewrite decide_True by done.
      rewrite HD by done. by eexists None, _.
  - cbn [mbind option_bind]. rewrite decide_False by done. eexists (Some s0), _. split; [done|]. split; [done|].
    intros ? [= <-]. split_and!; [done|split; done|done|simpl; lia|done].
Qed.
(** One append, for every pattern of allocation failures: success records the
    term; a wrong number of phases changes nothing; after a failed allocation
    the table is unchanged if it had never been allocated (or no realloc had
    succeeded) and otherwise cannot even be destroyed. *)
Theorem C20_transport_append c np p v sat z s ts o : ts_inv s → holds_terms s ts → np ≤ length sat → np ≤ length z →
  ∃ r s' o', ts_append jz jv c np p v sat z s o = Some (r, s', o') ∧
   if decide (np ≠ s_np s) then r = (-1)%Z ∧ s' = s else
   if decide (s_nsrc s = s_cpty s ∧ forallb id (outs 5 o) = false)
   then r = 0%Z ∧ s_nsrc s' = s_nsrc s ∧ if decide (s_cpty s = 0 ∨ existsb id (outs 5 o) = false) then s' = s else ts_destroy s' = None
   else r = 1%Z ∧ ts_inv s' ∧ holds_terms s' (ts ++ [Term c p v (take np sat) (take np z)]).
Proof.
  intros HI HH Hsat Hz. unfold ts_append. destruct (decide (np ≠ s_np s)) as [Hnp|Hnp]; [by exists (-1)%Z, s, o|].
  assert (np = s_np s) as Enp by (destruct (decide (np = s_np s)); [done|exfalso; by apply Hnp]). clear Hnp.
  assert (W : ∀ s o1, ts_inv s → holds_terms s ts → s_nsrc s < s_cpty s → s_np s = np →
    ∃ s', (cell ← put1 (s_cell s) (s_nsrc s) c; press ← put1 (s_press s) (s_nsrc s) p; flux ← put1 (s_flux s) (s_nsrc s) v;
     sat ← slice sat 0 np; sa ← putn (s_sat s) (s_nsrc s * np) sat; z ← slice z 0 np; surf ← putn (s_surf s) (s_nsrc s * np) z;
     Some (1%Z, TSrc (s_nsrc s + 1) (s_cpty s) (s_np s) cell press flux sa surf, o1)) = Some (1%Z, s', o1 : list bool) ∧
     ts_inv s' ∧ holds_terms s' (ts ++ [Term c p v (take np sat) (take np z)])).
  { clear - Hsat Hz. intros s o1 HI HH Hlt Hnp. rewrite <- Hnp in *.
    destruct (ts_write c p v sat z (take (s_np s) sat) (take (s_np s) z) s ts HI HH Hlt) as (s' & E & HI' & HH' & _).
    { by apply slice_Some. } { by apply slice_Some. }
    exists s'. split; [|done].
    destruct (put1 (s_cell s) _ _); [|done]. cbn [mbind option_bind] in E |- *. destruct (put1 (s_press s) _ _); [|done]. cbn [mbind option_bind] in E |- *.
    destruct (put1 (s_flux s) _ _); [|done]. cbn [mbind option_bind] in E |- *. destruct (slice sat _ _); [|done]. cbn [mbind option_bind] in E |- *.
    destruct (putn (s_sat s) _ _); [|done]. cbn [mbind option_bind] in E |- *. destruct (slice z _ _); [|done]. cbn [mbind option_bind] in E |- *.
    destruct (putn (s_surf s) _ _); [|done]. cbn [mbind option_bind] in E |- *. congruence. }
  destruct (decide (s_nsrc s = s_cpty s)) as [Hfull|Hfull].
  - set (al := if decide (0 < s_cpty s) then 2 * s_cpty s else 1).
    assert (Hal : s_cpty s < al ∧ 0 < al) by (subst al; destruct (decide _); lia).
    destruct (ts_expand_spec jz jv al s o HI ltac:(lia) ltac:(lia)) as (st & s1 & E & H). rewrite E. cbn [mbind option_bind].
    destruct (forallb id (outs 5 o)).
    + match goal with |- context [decide (_ ∧ true = false)] => destruct (decide (_ ∧ true = false)) as [[_ ?]|_]; [done|] end. destruct H as (-> & HI1 & Hs & Hc). rewrite decide_True by lia.
      destruct (W s1 (drop 5 o) HI1) as (s' & E' & HI' & HH').
      { by eapply ts_same_holds. } { destruct Hs as (-> & _). lia. } { destruct Hs as (_ & -> & _). done. }
      eexists 1%Z, s', _. split; [exact E'|]. done.
    + match goal with |- context [decide (_ ∧ false = false)] => destruct (decide (_ ∧ false = false)) as [_|Hx]; [|exfalso; by apply Hx] end. destruct H as (-> & Hn1 & _ & _ & H). rewrite decide_False by lia.
      eexists 0%Z, s1, _. done.
  - match goal with |- context [decide (_ ∧ ?b = false)] => destruct (decide (_ ∧ b = false)) as [[? _]|_]; [done|] end. cbn [mbind option_bind]. rewrite decide_True by lia.
    pose proof (ti_n s HI). destruct (W s o HI HH ltac:(lia) (eq_sym Enp)) as (s' & E' & HI' & HH'). eexists 1%Z, s', _. split; [exact E'|]. done.
Qed.
Theorem C20_transport_clear (s : @tsrc V) : ts_inv s → ts_inv (ts_clear s) ∧ holds_terms (ts_clear s) [].
Proof. intros [np n c p f sa z]. split; [|split; done]. constructor; cbn; try done. lia. Qed.
(** A usable table can be destroyed. *)
Theorem C20_transport_destroy (s : @tsrc V) : ts_inv s → ts_destroy s = Some tt.
Proof.
  intros [_ _ c p f sa z]. unfold ts_destroy.
  by rewrite (blk_free _ _ _ c), (blk_free _ _ _ p), (blk_free _ _ _ f), (blk_free _ _ _ sa), (blk_free _ _ _ z).
Qed.
(** Every history without allocation failures records all terms in order. *)
Inductive top := TAppend (np : nat) (t : @term V) | TClear.
Fixpoint trun (ops : list top) (s : @tsrc V) (o : list bool) : option (@tsrc V * list bool) :=
  match ops with
  | [] => Some (s, o)
  | TAppend np t :: ops =>
      '(_, s, o) ← ts_append jz jv (t_cell t) np (t_press t) (t_flux t) (t_sat t) (t_surf t) s o; trun ops s o
  | TClear :: ops => trun ops (ts_clear s) o
  end.
Fixpoint trecorded (np0 : nat) (ops : list top) (acc : list (@term V)) : list (@term V) :=
  match ops with
  | [] => acc
  | TAppend np t :: ops => trecorded np0 ops (if decide (np = np0) then acc ++ [t] else acc)
  | TClear :: ops => trecorded np0 ops []
  end.
Theorem C20_transport_history nsrc np o r o1 s : Forall (eq true) o → ts_create jz jv nsrc np o = Some (r, o1) → r = Some s →
  ∀ ops, (∀ n t, TAppend n t ∈ ops → length (t_sat t) = n ∧ length (t_surf t) = n) →
  ∃ s' o2, trun ops s o1 = Some (s', o2) ∧ holds_terms s' (trecorded np ops []) ∧ ts_destroy s' = Some tt.
Proof.
  intros Ho E -> ops Hops.
  assert (Ho1 : Forall (eq true) o1).
  { unfold ts_create in E. destruct (decide _); [by simplify_eq|]. destruct (next_true o Ho) as [E1 E2]. destruct (next_alloc o) as [b o0].
    simpl in E1, E2. subst b. destruct (decide (0 < nsrc)).
    - set (s0 := TSrc 0 0 np Null Null Null Null Null) in E. assert (HI : ts_inv s0) by (constructor; simpl; try done; lia).
      destruct (ts_expand_spec jz jv nsrc s0 o0 HI ltac:(simpl; lia) ltac:(lia)) as (st & s' & E' & _). rewrite E' in E. cbn [mbind option_bind] in E.
      destruct (decide (st = 0)); [destruct (ts_destroy s'); [|done]; cbn in E; by simplify_eq|].
      simplify_eq. by apply Forall_drop.
    - cbn [mbind option_bind] in E. rewrite decide_False in E by done. by simplify_eq. }
  destruct (C20_transport_create nsrc np o) as (r & o1' & E' & _ & Hr). rewrite E in E'. simplify_eq.
  destruct (Hr s eq_refl) as (HI & HH & Hnp & _). clear Hr E Ho.
  revert HI HH Hnp. generalize (@nil (@term V)) as acc. intros acc HI HH Hnp. revert s acc o1' Ho1 HI HH Hnp.
  induction ops as [|[n t|] ops IH]; intros s acc o1 Ho1 HI HH Hnp; cbn [trun trecorded].
  - exists s, o1. split_and!; [done|done|]. by apply C20_transport_destroy.
  - destruct (Hops n t) as [L1 L2]; [by left|].
    destruct (C20_transport_append (t_cell t) n (t_press t) (t_flux t) (t_sat t) (t_surf t) s acc o1 HI HH) as (r & s1 & o2 & E & H); [lia|lia|].
    rewrite E. cbn [mbind option_bind]. rewrite Hnp in H.
    assert (Ho2 : Forall (eq true) o2).
    { clear - E Ho1 HI. unfold ts_append in E. destruct (decide _); [by simplify_eq|].
      destruct (decide (s_nsrc s = s_cpty s)).
      - set (al := if decide (0 < s_cpty s) then 2 * s_cpty s else 1) in E.
        assert (Hal : s_cpty s < al ∧ 0 < al) by (subst al; destruct (decide _); lia).
        destruct (ts_expand_spec jz jv al s o1 HI ltac:(lia) ltac:(lia)) as (st & s2 & E' & _). rewrite E' in E. cbn [mbind option_bind] in E.
        destruct (decide (0 < st)); [|simplify_eq; by apply Forall_drop].
        repeat match type of E with (?x ≫= _) = _ => destruct x; [|done]; cbn [mbind option_bind] in E end. simplify_eq. by apply Forall_drop.
      - cbn [mbind option_bind] in E. rewrite decide_True in E by lia.
        repeat match type of E with (?x ≫= _) = _ => destruct x; [|done]; cbn [mbind option_bind] in E end. by simplify_eq. }
    assert (Hops' : ∀ n t, TAppend n t ∈ ops → length (t_sat t) = n ∧ length (t_surf t) = n) by (intros ?? ?; apply Hops; by right).
    destruct (decide (n = np)) as [->|Hne].
    + rewrite decide_False in H by (intros Hx; by apply Hx). rewrite decide_False in H.
      2:{ intros [_ Hf]. assert (Hall : forallb id (outs 5 o1) = true); [|congruence].
          unfold outs. apply forallb_forall. intros b Hb. apply in_map_iff in Hb as (i & <- & _). unfold id.
          destruct (o1 !! i) as [b|] eqn:Eb; [|done]. simpl. rewrite Forall_lookup in Ho1. symmetry. by eapply Ho1. }
      destruct H as (-> & HI1 & HH1). rewrite <- L1 in HH1 at 1. rewrite take_ge in HH1 by lia. rewrite take_ge in HH1 by lia.
      assert (Hnp1 : s_np s1 = np).
      { clear - E HI Hnp. unfold ts_append in E. destruct (decide _) as [|_]; [by simplify_eq|].
        destruct (decide (s_nsrc s = s_cpty s)).
        - set (al := if decide (0 < s_cpty s) then 2 * s_cpty s else 1) in E.
          assert (Hal : s_cpty s < al ∧ 0 < al) by (subst al; destruct (decide _); lia).
          destruct (ts_expand_spec jz jv al s o1 HI ltac:(lia) ltac:(lia)) as (st & s2 & E' & Hx). rewrite E' in E. cbn [mbind option_bind] in E.
          assert (s_np s2 = s_np s). { destruct (forallb _ _); [destruct Hx as (_ & _ & (_ & -> & _) & _); done|by destruct Hx as (_ & _ & _ & -> & _)]. }
          destruct (decide (0 < st)); [|by simplify_eq].
          repeat match type of E with (?x ≫= _) = _ => destruct x; [|done]; cbn [mbind option_bind] in E end. simplify_eq. simpl. congruence.
        - cbn [mbind option_bind] in E. rewrite decide_True in E by lia.
          repeat match type of E with (?x ≫= _) = _ => destruct x; [|done]; cbn [mbind option_bind] in E end. by simplify_eq. }
      destruct t as [tc tp tf tsa tsu]. apply IH; done.
    + rewrite decide_True in H by done. destruct H as [_ ->]. by apply IH.
  - destruct (C20_transport_clear s HI) as [HI1 HH1]. apply IH; try done. intros ?? ?; apply Hops; by right.
Qed.
(** The claim about failures is false: after a failed append the table holds
    freed memory; destroying it frees twice, using it reads freed memory. *)
Theorem C20_transport_failure_refuted : ∃ (o : list bool) s s', ts_create jz jv 1 1 [] = Some (Some s, []) ∧
  ∃ s1, ts_append jz jv 5 1 jv jv [jv] [jv] s [] = Some (1%Z, s1, []) ∧
        ts_append jz jv 6 1 jv jv [jv] [jv] s1 o = Some (0%Z, s', []) ∧
        ts_destroy s' = None ∧ ts_append jz jv 7 1 jv jv [jv] [jv] s' [] = None.
Proof. exists [true; true; false; true; true]. eexists _, _. split; [reflexivity|]. eexists. split; [reflexivity|]. split; [reflexivity|]. done. Qed.
End transport.
Print Assumptions C20_transport_append.
Print Assumptions C20_transport_history.
Print Assumptions C20_transport_failure_refuted.

(** ** Compressible sources *)
Section compr.
Context {V : Type}.
Variables (jz : Z) (jv : V).
Theorem C20_compr_create np nsrc o : ∃ r o1, cs_create jz jv np nsrc o = Some (r, o1) ∧
  (np = 0 → r = None) ∧ ∀ s, r = Some s → cs_inv s ∧ holds_cterms s [] ∧ q_np s = np ∧ nsrc ≤ q_cpty s.
Proof.
  unfold cs_create. destruct (decide (np = 0)) as [Hnp|Hnp]; [by exists None, o|].
  destruct (next_alloc o) as [[] o1]; [|by exists None, o1].
  set (s0 := CSrc 0 0 np Null Null Null).
  assert (HI : cs_inv s0) by (constructor; simpl; try done; lia).
  destruct (decide (0 < nsrc)) as [Hn|Hn].
  - destruct (cs_expand_spec jz jv nsrc s0 o1 HI ltac:(simpl; lia) Hn) as (st & s' & E & H). rewrite E. cbn [mbind option_bind].
    destruct (forallb id (outs 3 o1)).
    + destruct H as (-> & HI' & Hs & Hc). rewrite decide_False by lia. eexists (Some s'), _. split; [done|]. split; [done|].
      intros ? [= <-]. destruct Hs as (N & P & _). split_and!; [done|split; [done|done]|done|lia].
    + destruct H as (-> & _ & _ & _ & H). rewrite decide_True in H by (by left). subst s'. rewrite decide_True by done.
      by eexists None, _.
  - cbn [mbind option_bind]. rewrite decide_False by done. eexists (Some s0), _. split; [done|]. split; [done|].
    intros ? [= <-]. split_and!; [done|split; done|done|simpl; lia].
Qed.
Theorem C20_compr_append c np v sat s ts o : cs_inv s → holds_cterms s ts → np ≤ length sat →
  ∃ r s' o', cs_append jz jv c np v sat s o = Some (r, s', o') ∧
   if decide (np ≠ q_np s) then r = (-1)%Z ∧ s' = s else
   if decide (q_nsrc s = q_cpty s ∧ forallb id (outs 3 o) = false)
   then r = 0%Z ∧ q_nsrc s' = q_nsrc s ∧ if decide (q_cpty s = 0 ∨ existsb id (outs 3 o) = false) then s' = s else cs_destroy s' = None
   else r = 1%Z ∧ cs_inv s' ∧ holds_cterms s' (ts ++ [CTerm c v (take np sat)]).
Proof.
  intros HI HH Hsat. unfold cs_append. destruct (decide (np ≠ q_np s)) as [Hnp|Hnp]; [by exists (-1)%Z, s, o|].
  assert (np = q_np s) as Enp by (destruct (decide (np = q_np s)); [done|exfalso; by apply Hnp]). clear Hnp.
  assert (W : ∀ s o1, cs_inv s → holds_cterms s ts → q_nsrc s < q_cpty s → q_np s = np →
    ∃ s', (cell ← put1 (q_cell s) (q_nsrc s) c; flux ← put1 (q_flux s) (q_nsrc s) v;
     sat ← slice sat 0 np; sa ← putn (q_sat s) (q_nsrc s * np) sat;
     Some (1%Z, CSrc (q_nsrc s + 1) (q_cpty s) (q_np s) cell flux sa, o1)) = Some (1%Z, s', o1 : list bool) ∧
     cs_inv s' ∧ holds_cterms s' (ts ++ [CTerm c v (take np sat)])).
  { clear - Hsat. intros s o1 HI HH Hlt Hnp. rewrite <- Hnp in *.
    destruct (cs_write c v sat (take (q_np s) sat) s ts HI HH Hlt) as (s' & E & HI' & HH' & _).
    { by apply slice_Some. }
    exists s'. split; [|done].
    destruct (put1 (q_cell s) _ _); [|done]. cbn [mbind option_bind] in E |- *.
    destruct (put1 (q_flux s) _ _); [|done]. cbn [mbind option_bind] in E |- *. destruct (slice sat _ _); [|done]. cbn [mbind option_bind] in E |- *.
    destruct (putn (q_sat s) _ _); [|done]. cbn [mbind option_bind] in E |- *. congruence. }
  destruct (decide (q_nsrc s = q_cpty s)) as [Hfull|Hfull].
  - set (al := if decide (0 < q_cpty s) then 2 * q_cpty s else 1).
    assert (Hal : q_cpty s < al ∧ 0 < al) by (subst al; destruct (decide _); lia).
    destruct (cs_expand_spec jz jv al s o HI ltac:(lia) ltac:(lia)) as (st & s1 & E & H). rewrite E. cbn [mbind option_bind].
    destruct (forallb id (outs 3 o)).
    + match goal with |- context [decide (_ ∧ true = false)] => destruct (decide (_ ∧ true = false)) as [[_ ?]|_]; [done|] end. destruct H as (-> & HI1 & Hs & Hc). rewrite decide_True by lia.
      destruct (W s1 (drop 3 o) HI1) as (s' & E' & HI' & HH').
      { by eapply cs_same_holds. } { destruct Hs as (-> & _). lia. } { destruct Hs as (_ & -> & _). done. }
      eexists 1%Z, s', _. split; [exact E'|]. done.
    + match goal with |- context [decide (_ ∧ false = false)] => destruct (decide (_ ∧ false = false)) as [_|Hx]; [|exfalso; by apply Hx] end. destruct H as (-> & Hn1 & _ & _ & H). rewrite decide_False by lia.
      eexists 0%Z, s1, _. done.
  - match goal with |- context [decide (_ ∧ ?b = false)] => destruct (decide (_ ∧ b = false)) as [[? _]|_]; [done|] end. pose proof (ci_n s HI).
    rewrite (decide_True (P := q_nsrc s < q_cpty s)) by lia. cbn [mbind option_bind]. rewrite decide_True by lia.
    destruct (W s o HI HH ltac:(lia) (eq_sym Enp)) as (s' & E' & HI' & HH'). eexists 1%Z, s', _. split; [exact E'|]. done.
Qed.
Theorem C20_compr_failure_refuted : ∃ (o : list bool) s s', cs_create jz jv 1 1 [] = Some (Some s, []) ∧
  ∃ s1, cs_append jz jv 5 1 jv [jv] s [] = Some (1%Z, s1, []) ∧
        cs_append jz jv 6 1 jv [jv] s1 o = Some (0%Z, s', []) ∧
        cs_destroy s' = None ∧ cs_append jz jv 7 1 jv [jv] s' [] = None.
Proof. exists [true; false; true]. eexists _, _. split; [reflexivity|]. eexists. split; [reflexivity|]. split; [reflexivity|]. done. Qed.

(** ** Compressible boundary conditions: the capacity is never stored, so the
    second append always fails its assertion (and would write out of bounds
    without it), whatever was reserved. *)
Context {bty : Type} (jt : bty).
Theorem C20_compr_bc_second_append_refuted np nbc t f p v sat : 0 < np → np ≤ length sat →
  ∃ s s1, cb_create jz jv jt np nbc [] = Some (Some s, []) ∧ cb_append jz jv jt t f np p v sat s [] = Some (1%Z, s1, []) ∧
    ∀ t' f' p' v' sat' o, cb_append jz jv jt t' f' np p' v' sat' s1 o = None.
Proof.
  intros Hnp Hsat. unfold cb_create. rewrite decide_False by lia. cbn [next_alloc].
  assert (E : ∃ s, (if decide (0 < nbc) then cb_expand jz jv jt nbc (CBc 0 0 np Null Null Null Null Null) [] else Some (1, CBc 0 0 np Null Null Null Null Null, [])) =
     Some (if decide (0 < nbc) then nbc else 1, s, []) ∧ b_nbc s = 0 ∧ b_cpty s = 0 ∧ b_np s = np ∧
     sound (b_type s) ∧ sound (b_face s) ∧ sound (b_press s) ∧ sound (b_flux s) ∧ sound (b_sat s)).
  { destruct (decide (0 < nbc)); eexists; (split; [reflexivity|]); done. }
  destruct E as (s & -> & N & C & P & S1 & S2 & S3 & S4 & S5). cbn [mbind option_bind].
  exists s. assert (F : ∃ s1, cb_append jz jv jt t f np p v sat s [] = Some (1%Z, s1, []) ∧ b_nbc s1 = 1 ∧ b_cpty s1 = 0 ∧ b_np s1 = np).
  { unfold cb_append. rewrite decide_False by (rewrite P; intros H; by apply H). rewrite decide_True by congruence.
    rewrite C. rewrite (decide_False (P := 0 < 0)) by lia. unfold cb_expand.
    do 5 (rewrite brealloc_spec by done; cbn [mbind option_bind next_alloc fst snd]). rewrite (decide_True (P := 0 < 1)) by lia.
    cbn [b_nbc b_cpty b_np b_type b_face b_press b_flux b_sat]. rewrite N, C, P.
    do 4 (rewrite put1_ok by (cbn [contents]; rewrite realloc_arr_length; lia); cbn [mbind option_bind]).
    rewrite slice_Some by done. cbn [mbind option_bind].
    destruct (putn_ok (Live (realloc_arr jv (1 * np) (contents (b_sat s)))) (0 * np) (take np (drop 0 sat))) as (b' & Eb & _); [done| |].
    { cbn [contents]. rewrite realloc_arr_length, take_length, drop_length. lia. }
    rewrite Eb. cbn [mbind option_bind]. eexists. split; [done|]. done. }
  destruct F as (s1 & E1 & N1 & C1 & P1). exists s1. split; [by rewrite (decide_False (P := (if decide (0 < nbc) then nbc else 1) = 0)) by (destruct (decide (0 < nbc)); lia)|]. split; [exact E1|].
  intros t' f' p' v' sat' o. unfold cb_append. rewrite decide_False by (rewrite P1; intros H; by apply H).
  rewrite N1, C1. by rewrite decide_False, decide_False by lia.
Qed.
End compr.
Print Assumptions C20_compr_append.
Print Assumptions C20_compr_failure_refuted.
Print Assumptions C20_compr_bc_second_append_refuted.
