(** C21, C22, C23: the run-time parameter tree. *)
From Coq Require Import Ascii.
From stdpp Require Import strings.
From Verif Require Import Base ParamModel ParamSpec ParamProof ParamRoundSpec ParamRoundProof.

(** ** C21: insertion *)
(** Inserting at a name that is a path: it succeeds unless a proper prefix of the
    path is a plain parameter; afterwards the path holds the value, nothing is
    stored below it, the groups above it exist, and every other path is as before. *)
Theorem C21_insert name value path m : name_ok name → ∃ n r, (∀ fuel, n ≤ fuel → insert_parameter fuel name value path m = Some r) ∧
  ((blocked m (comps name) ∧ r = BadCast) ∨
   (¬ blocked m (comps name) ∧ ∃ m', r = Ok m' ∧
     at_path m' (comps name) = Some (Param value cmdline) ∧
     (∀ q, q ≠ [] → at_path m' (comps name ++ q) = None) ∧
     (∀ p q, p ≠ [] → q ≠ [] → comps name = p ++ q → ∃ pp m1, at_path m' p = Some (Group pp m1)) ∧
     (∀ q, ¬ comps name `prefix_of` q → ¬ q `prefix_of` comps name → at_path m' q = at_path m q))).
Proof.
  intros Hok. eexists _, _. split; [intros fuel Hf; apply insert_ins; [done|exact Hf]|].
  destruct (ins_result (comps name) value path m (comps_ok _ Hok)) as [[Hb ->]|[Hb [m' E]]]; [by left|right]. rewrite E.
  split; [done|]. exists m'. split_and!; [done|by eapply ins_at| | |by intros; eapply ins_frame].
  - intros q Hq. eapply at_below; [by eapply ins_at|done].
  - intros p q Hp Hq Epq. apply ins_at in E. rewrite Epq in E. by eapply at_above.
Qed.
Print Assumptions C21_insert.

(** ** C21: lookup *)
Lemma comps_join ws : Forall plain ws → ws ≠ [] → comps (join ws) = ws ∧ name_ok (join ws).
Proof.
  induction ws as [|w ws IH]; intros Hp Hne; [done|]. apply Forall_cons in Hp as [[H1 H2] Hp].
  destruct ws as [|w2 ws]; [simpl; split; [by apply comps_plain|by apply name_ok_plain]|].
  destruct IH as [IH1 IH2]; [done|done|]. rewrite join_cons by done. split; [rewrite comps_slash by done; by rewrite IH1|by apply name_ok_slash_back].
Qed.
(** A stored item is found under its name from any group whose tree holds it. *)
Theorem C21_get_stored m parents ws it : Forall plain ws → at_path m ws = Some it →
  ∃ n, ∀ fuel, n ≤ fuel → get_item fuel (join ws) m parents = Some (Ok it).
Proof. intros Hp Ha. exists (length ws). intros fuel Hf. by apply get_item_at. Qed.
Theorem C21_has m ws : ws ≠ [] → Forall plain ws → ∃ n, ∀ fuel, n ≤ fuel →
  (blocked m ws → has fuel (join ws) m = Some BadCast) ∧
  (¬ blocked m ws → has fuel (join ws) m = Some (Ok (bool_decide (is_Some (at_path m ws))))).
Proof. intros Hne Hp. exists (length ws). intros fuel Hf. by apply has_at. Qed.
(** Insert, then get: the value comes back through the conversion of the type asked for. *)
Theorem C21_insert_get {T} tname (conv : str → option T) req ws value path m parents :
  Forall plain ws → ws ≠ [] → ¬ blocked m ws →
  ∃ n m', ∀ fuel, n ≤ fuel → insert_parameter fuel (join ws) value path m = Some (Ok m') ∧
    has fuel (join ws) m' = Some (Ok true) ∧
    get tname conv req fuel (join ws) m' parents =
      Some (match conv value with None => WrongType | Some x => if req x then Ok x else Requirement end).
Proof.
  intros Hp Hne Hb. destruct (comps_join ws Hp Hne) as [Hc Hok].
  destruct (C21_insert (join ws) value path m Hok) as (n & r & Hr & Hx). rewrite Hc in Hx.
  destruct Hx as [[? _]|(_ & m' & -> & Ha & Hbe & Hab & _)]; [done|]. exists (n + length ws), m'. intros fuel Hf.
  split; [apply Hr; lia|]. split.
  - destruct (has_at fuel ws m' Hne Hp) as [_ Hh]; [lia|]. rewrite Hh; [by rewrite Ha|].
    intros (p & q & v & t & E & Hp' & Hq & Hpar). destruct (Hab p q Hp' Hq E) as (pp & m1 & E1). congruence.
  - unfold get. rewrite (get_item_at fuel ws m' parents _ Hp Ha) by lia. cbn [mbind option_bind translate].
    rewrite decide_False; [done|]. intros [_ Hx]. by apply Hx.
Qed.
Print Assumptions C21_insert_get.

(** Inheritance.  [enclosing m ws] is the group at path [ws] of the tree [m],
    followed by the groups around it. *)
Fixpoint enclosing (m : pmap) (ws : list str) : option (list pmap) :=
  match ws with
  | [] => Some [m]
  | w :: ws => match mfind w m with Some (Group _ m1) => l ← enclosing m1 ws; Some (l ++ [m]) | _ => None end
  end.
Lemma enclosing_length m ws l : enclosing m ws = Some l → length l = S (length ws).
Proof.
  revert m l. induction ws as [|w ws IH]; intros m l H; simpl in *; [by simplify_eq|].
  destruct (mfind w m) as [[|p m1]|]; try done. destruct (enclosing m1 ws) as [l1|] eqn:E; [|done]. simpl in H. simplify_eq.
  rewrite app_length. simpl. rewrite (IH _ _ E). lia.
Qed.
Lemma enclosing_find m ws l i g x : enclosing m ws = Some l → l !! i = Some g → mfind x g = at_path m (take (length ws - i) ws ++ [x]).
Proof.
  revert m l i. induction ws as [|w ws IH]; intros m l i H Hi; simpl in H.
  - simplify_eq. apply list_lookup_singleton_Some in Hi as [-> <-]. done.
  - destruct (mfind w m) as [[|p m1]|] eqn:Ew; try done. destruct (enclosing m1 ws) as [l1|] eqn:E; [|done]. simpl in H. simplify_eq.
    pose proof (enclosing_length _ _ _ E) as Hl. apply lookup_app_Some in Hi as [Hi|[Hi Hg]].
    + pose proof (lookup_lt_Some _ _ _ Hi). rewrite (IH _ _ _ E Hi). replace (length (w :: ws) - i) with (S (length ws - i)) by (simpl; lia).
      cbn [take app]. rewrite at_cons; [by rewrite Ew|]. by destruct (take _ ws).
    + apply list_lookup_singleton_Some in Hg as [Hg <-]. replace (length (w :: ws) - i) with 0 by (simpl; lia). done.
Qed.
(** Looking up "ws/x" from the top is looking up x from the group at ws. *)
Lemma get_down fuel ws x m ps g l : plain x → Forall plain ws → enclosing m ws = Some (g :: l) →
  get_item (length ws + fuel) (join (ws ++ [x])) m ps = get_item fuel x g (l ++ ps).
Proof.
  intros Hx. revert m ps g l. induction ws as [|w ws IH]; intros m ps g l Hp H; simpl in H; [by simplify_eq|].
  apply Forall_cons in Hp as [Hw Hp]. destruct (mfind w m) as [[|p m1]|] eqn:Ew; try done.
  destruct (enclosing m1 ws) as [l1|] eqn:E; [|done]. simpl in H. injection H as H.
  cbn [length Nat.add app get_item]. rewrite split_join by done. rewrite Ew. rewrite decide_False by (destruct ws as [|w2 ws]; [by destruct Hx|]; apply join_nonnil; by apply Forall_cons in Hp as [? _]).
  pose proof (enclosing_length _ _ _ E). destruct l1 as [|g1 l1]; [done|]. simpl in H. injection H as -> <-.
  rewrite (IH m1 (m :: ps) g l1) by done. by rewrite <- app_assoc.
Qed.
Lemma get_scopes fuel x g l : plain x → length l < fuel →
  get_item fuel x g l = Some (match list_find (λ s, is_Some (mfind x s)) (g :: l) with Some (_, s) => match mfind x s with Some it => Ok it | None => NotFound end | None => NotFound end).
Proof.
  intros [Hx1 Hx2]. revert fuel g. induction l as [|h l IH]; intros fuel g Hf; (destruct fuel as [|f]; [simpl in Hf; lia|]).
  - cbn [get_item]. rewrite split_plain by done. cbn [list_find]. destruct (mfind x g) as [it|] eqn:E.
    + rewrite !decide_True by eauto. by rewrite E.
    + rewrite decide_False by (by intros [? ?]). done.
  - cbn [get_item]. rewrite split_plain by done. cbn [list_find]. destruct (mfind x g) as [it|] eqn:E.
    + rewrite decide_True by done. rewrite decide_True by eauto. by rewrite E.
    + rewrite (decide_False (P := is_Some None)) by (by intros [? ?]). rewrite IH by (simpl in Hf; lia). cbn [list_find].
      destruct (decide (is_Some (mfind x h))); [done|]. destruct (list_find _ l) as [[]|]; done.
Qed.
(** The name "ws/x" where ws is a group: the item with name x in the nearest
    enclosing group that has one; an exception, or the default value, if none has. *)
Theorem C21_get_inherits {T} tname (conv : str → option T) req d m ws x l : Forall plain ws → plain x → enclosing m ws = Some l →
  (∃ n, ∀ fuel, n ≤ fuel →
    (∀ pre suf it, ws = pre ++ suf → at_path m (pre ++ [x]) = Some it →
      (∀ pre' suf', ws = pre' ++ suf' → length pre < length pre' → at_path m (pre' ++ [x]) = None) →
      get_item fuel (join (ws ++ [x])) m [] = Some (Ok it)) ∧
    ((∀ pre suf, ws = pre ++ suf → at_path m (pre ++ [x]) = None) →
      get tname conv req fuel (join (ws ++ [x])) m [] = Some NotFound ∧
      get_default tname conv req fuel (join (ws ++ [x])) d m [] = Some (if req d then Ok d else Requirement))).
Proof.
  intros Hp Hx Hl. pose proof (enclosing_length _ _ _ Hl) as Hlen. destruct l as [|g l]; [done|]. simpl in Hlen.
  exists (length ws + S (length l)). intros fuel Hf. replace fuel with (length ws + (fuel - length ws)) by lia.
  assert (G : get_item (length ws + (fuel - length ws)) (join (ws ++ [x])) m [] =
    Some (match list_find (λ s, is_Some (mfind x s)) (g :: l) with Some (_, s) => match mfind x s with Some it => Ok it | None => NotFound end | None => NotFound end)).
  { rewrite (get_down _ ws x m [] g l) by done. rewrite app_nil_r. apply get_scopes; [done|lia]. }
  split.
  - intros pre suf it E Ha Hmin. rewrite G.
    assert (Ei : length ws - length pre < length (g :: l)) by (simpl; lia). apply lookup_lt_is_Some in Ei as [s Hs].
    assert (Hfs : mfind x s = Some it).
    { rewrite (enclosing_find _ _ _ _ _ x Hl Hs). assert (length ws = length pre + length suf) by (rewrite E; apply app_length).
      replace (length ws - (length ws - length pre)) with (length pre) by lia. rewrite E, take_app. done. }
    assert (F : list_find (λ s, is_Some (mfind x s)) (g :: l) = Some (length ws - length pre, s)).
    { apply list_find_Some. split_and!; [done|by rewrite Hfs|]. intros j y Hj Hlt [it' Hy]. pose proof (lookup_lt_Some _ _ _ Hj).
      rewrite (enclosing_find _ _ _ _ _ x Hl Hj) in Hy. rewrite (Hmin _ (drop (length ws - j) ws)) in Hy; [done|by rewrite take_drop|].
      rewrite take_length. assert (length ws = length pre + length suf) by (rewrite E; apply app_length). lia. }
    rewrite F. by rewrite Hfs.
  - intros Hnone. assert (F : list_find (λ s, is_Some (mfind x s)) (g :: l) = None).
    { apply list_find_None, Forall_forall. intros s Hs [it Hy]. apply elem_of_list_lookup in Hs as [i Hi].
      rewrite (enclosing_find _ _ _ _ _ x Hl Hi) in Hy. rewrite (Hnone _ (drop (length ws - i) ws)) in Hy; [done|by rewrite take_drop]. }
    unfold get, get_default. rewrite G, F. done.
Qed.
Print Assumptions C21_get_inherits.

(** ** C21: histories *)
(** Enough fuel never changes an answer. *)
Lemma skip_mono f f' np r : skip_empty f np = Some r → f ≤ f' → skip_empty f' np = Some r.
Proof.
  revert f' np. induction f as [|f IH]; intros f' np H Hf; [done|]. destruct f' as [|f']; [lia|]. cbn [skip_empty] in *.
  destruct (decide (fst np = [])); [|done]. apply IH; [done|lia].
Qed.
Lemma insert_mono f f' name v path m r : insert_parameter f name v path m = Some r → f ≤ f' → insert_parameter f' name v path m = Some r.
Proof.
  revert f' name path m r. induction f as [|f IH]; intros f' name path m r H Hf; [done|]. destruct f' as [|f']; [lia|]. cbn [insert_parameter] in *.
  destruct (skip_empty (S f) (split name)) as [[w rest]|] eqn:E; [|done]. rewrite (skip_mono _ (S f') _ _ E) by lia. cbn [mbind option_bind] in *.
  destruct (mfind w m) as [[|p m1]|].
  - done.
  - destruct (decide (rest = [])); [done|]. destruct (insert_parameter f rest v p m1) as [r1|] eqn:E1; [|done].
    rewrite (IH f' _ _ _ _ E1) by lia. done.
  - destruct (decide (rest = [])); [done|]. destruct (insert_parameter f rest v (path ++ [slash] ++ w) []) as [r1|] eqn:E1; [|done].
    rewrite (IH f' _ _ _ _ E1) by lia. done.
Qed.
Lemma name_ok_dec name : name_ok name ∨ ¬ name_ok name.
Proof.
  destruct name as [|a s _] using rev_ind; [right; apply not_name_ok_nil|]. destruct (decide (a = slash)) as [->|Ha]; [|left; exists s, a; auto].
  destruct s as [|b s _] using rev_ind; [right; apply not_name_ok_slash|]. destruct (decide (b = slash)) as [->|Hb].
  - right. intros H. rewrite <- app_assoc in H. cbn [app] in H. apply name_ok_slash in H; [|done]. by apply not_name_ok_slash.
  - left. exists s, b. split; [done|]. right. by rewrite <- app_assoc.
Qed.
Lemma insert_Ok f name v path m m' : insert_parameter f name v path m = Some (Ok m') → name_ok name ∧ ins (comps name) v path m = Ok m'.
Proof.
  intros H. assert (Hok : name_ok name).
  { destruct (name_ok_dec name) as [|Hn]; [done|]. destruct (insert_hang f name v path m Hn) as [Hx|Hx]; by rewrite Hx in H. }
  split; [done|]. apply (insert_mono _ (f + S (length name))) in H; [|lia]. rewrite insert_ins in H by (done || lia). by injection H.
Qed.
Lemma ins_keeps ws v path m m' q u t : ins ws v path m = Ok m' → at_path m q = Some (Param u t) → ¬ ws `prefix_of` q → at_path m' q = Some (Param u t).
Proof.
  intros H Ha Hn. rewrite (ins_frame _ _ _ _ _ q H); [done|done|]. intros [k ->]. destruct k as [|x k]; [rewrite app_nil_r in Hn; by apply Hn|].
  assert (Hq : q ≠ []) by (by destruct q). destruct (ins_result (q ++ x :: k) v path m) as [[_ Hx]|[Hx _]]; [by destruct q|congruence|].
  apply Hx. exists q, (x :: k), u, t. done.
Qed.
(** After any successful history of insertions, a path that was assigned and whose
    prefixes were not assigned later holds the assigned value. *)
Theorem C21_last_assignment_wins fuel as1 n v as2 path m m' :
  assign_all fuel (as1 ++ (n, v) :: as2) path m = Some (Ok m') →
  (∀ n' v', (n', v') ∈ as2 → ¬ comps n' `prefix_of` comps n) → at_path m' (comps n) = Some (Param v cmdline).
Proof.
  intros H Hno. revert m H. induction as1 as [|[n1 v1] as1 IH]; intros m H.
  - cbn [app assign_all] in H. destruct (insert_parameter fuel n v path m) as [r|] eqn:E; [|done]. cbn [mbind option_bind] in H.
    destruct r as [m1| | | | |]; try done. apply insert_Ok in E as [_ E]. apply ins_at in E.
    revert m1 E H. induction as2 as [|[n2 v2] as2 IH2]; intros m1 E H; [simpl in H; by simplify_eq|].
    cbn [assign_all] in H. destruct (insert_parameter fuel n2 v2 path m1) as [r|] eqn:E2; [|done]. cbn [mbind option_bind] in H.
    destruct r as [m2| | | | |]; try done. apply insert_Ok in E2 as [_ E2]. apply (IH2) with (m1 := m2); [intros; eapply Hno; by right| |done].
    eapply ins_keeps; [done|done|]. eapply Hno. by left.
  - cbn [app assign_all] in H. destruct (insert_parameter fuel n1 v1 path m) as [r|] eqn:E; [|done]. cbn [mbind option_bind] in H.
    destruct r as [m1| | | | |]; try done. by eapply IH.
Qed.
Print Assumptions C21_last_assignment_wins.
(** The command line: an assignment wins over everything read from files,
    wherever the files stand among the arguments. *)
Theorem C21_command_line files read_xml fuel args1 n v args2 m m' : equals ∉ n → equals ∉ v →
  parse_args files read_xml fuel (args1 ++ (n ++ equals :: v) :: args2) m = Some (Ok m') →
  (∀ n' v', (n' ++ equals :: v') ∈ args2 → equals ∉ n' → equals ∉ v' → ¬ comps n' `prefix_of` comps n) →
  at_path m' (comps n) = Some (Param v cmdline).
Proof.
  intros Hn Hv H Hno. unfold parse_args in H.
  assert (S2 : ∀ n' v', (n', v') ∈ snd (sort_args args2) → ¬ comps n' `prefix_of` comps n).
  { clear H. induction args2 as [|a args2 IH]; intros n' v' Hin; [by apply elem_of_nil in Hin|]. cbn [sort_args] in Hin.
    destruct (sort_args args2) as [fs as_] eqn:Es. simpl in IH.
    assert (IH' : ∀ n' v', (n', v') ∈ as_ → ¬ comps n' `prefix_of` comps n).
    { apply IH. intros n2 v2 H2. apply Hno with (v' := v2). by right. }
    destruct (cut equals a) as [Ha|(w & r & -> & Hw)]; [rewrite find1_notin in Hin by done; eauto|].
    rewrite find1_in in Hin by done. unfold find_at in Hin. rewrite app_length in Hin. cbn [length] in Hin. rewrite decide_True in Hin by lia.
    assert (Ed : drop (length w + 1) (w ++ equals :: r) = r) by (by rewrite <- drop_drop, drop_app). rewrite Ed, take_app in Hin.
    destruct (cut equals r) as [Hr|(w2 & r2 & -> & Hw2)]; [|rewrite find1_in in Hin by done; eauto].
    rewrite find1_notin in Hin by done. simpl in Hin. apply elem_of_cons in Hin as [[= -> ->]|Hin]; [|eauto].
    apply Hno with (v' := r); [by left|done|done]. }
  assert (S1 : ∃ as1, snd (sort_args (args1 ++ (n ++ equals :: v) :: args2)) = as1 ++ (n, v) :: snd (sort_args args2)).
  { clear - Hn Hv. induction args1 as [|a args1 IH].
    - exists []. cbn [app sort_args]. destruct (sort_args args2) as [fs as_]. rewrite find1_in by done. unfold find_at. rewrite app_length. cbn [length].
      rewrite decide_True by lia. assert (Ed : drop (length n + 1) (n ++ equals :: v) = v) by (by rewrite <- drop_drop, drop_app).
      rewrite Ed, take_app, find1_notin by done. done.
    - cbn [app sort_args]. destruct (sort_args (args1 ++ _)) as [fs as_]. simpl in IH. destruct IH as [as1 ->].
      destruct (find [equals] a); [|by exists as1]. destruct (find_at _ _ _); [by exists as1|]. simpl. by eexists (_ :: as1). }
  destruct S1 as [as1 S1]. destruct (sort_args (args1 ++ _)) as [fs as_]. simpl in S1. subst as_.
  destruct (read_files files read_xml fuel fs m) as [r|]; [|done]. cbn [mbind option_bind] in H. destruct r as [m1| | | | |]; try done.
  by eapply C21_last_assignment_wins.
Qed.
Print Assumptions C21_command_line.
(** Read with the very string it was inserted under, a value may be missing: a
    leading or doubled slash is dropped by insertion but not by lookup. *)
Definition s (x : string) : str := list_ascii_of_string x.
Theorem C21_same_string_refuted : ∃ name value m', (∀ fuel, 10 ≤ fuel → insert_parameter fuel name value [] [] = Some (Ok m')) ∧
  ∀ fuel, 10 ≤ fuel → get_item fuel name m' [] = Some NotFound ∧ has fuel name m' = Some (Ok false).
Proof.
  exists (s "/a"), (s "5"), [(s "a", Param (s "5") cmdline)]. split.
  - intros fuel Hf. do 10 (destruct fuel as [|fuel]; [lia|]). reflexivity.
  - intros fuel Hf. do 10 (destruct fuel as [|fuel]; [lia|]). split; reflexivity.
Qed.
(** Non-vacuity: nested insertion, inheritance, replacement, and a blocked path. *)
Example C21_example :
  let m := assign_all 20 [(s "grid/nx", s "3"); (s "tol", s "1"); (s "grid//ny/", s "4"); (s "grid/nx", s "7")] [] [] in
  m = Some (Ok [(s "grid", Group (s "/grid") [(s "nx", Param (s "7") cmdline); (s "ny", Param (s "4") cmdline)]); (s "tol", Param (s "1") cmdline)]) ∧
  (r ← m; match r with Ok m => get (s "string") Some (λ _, true) 20 (s "grid/tol") m [] | _ => None end) = Some (Ok (s "1")) ∧
  (r ← m; match r with Ok m => insert_parameter 20 (s "tol/x") (s "1") [] m | _ => None end) = Some BadCast ∧
  (r ← m; match r with Ok m => get_default (s "string") Some (λ _, true) 20 (s "grid/nz") (s "9") m [] | _ => None end) = Some (Ok (s "9")).
Proof. vm_compute. done. Qed.
Example C21_example_args :
  parse_args (λ f, if decide (f = s "a.param") then Some (s "p=1
q/r=2 // c
// all comment
") else None) (λ _ m, Some (Ok m)) 20 [s "p=5"; s "a.param"; s "x=1=2"] []
  = Some (Ok [(s "p", Param (s "5") cmdline); (s "q", Group (s "/q") [(s "r", Param (s "2 ") cmdline)])]).
Proof. vm_compute. done. Qed.

(** ** C22 *)
(** Every well-formed nonempty tree is restored, except that types are forgotten. *)
Theorem C22_round_trip m : good [] m → m ≠ [] → ∃ n m', (∀ fuel, n ≤ fuel →
  read_param fuel (write_group [] m) [] [] = Some (Ok m')) ∧ Group [] m' = erase (Group [] m).
Proof.
  intros Hg Hne. exists (S (foldr (λ l a, length (spell (fst l)) + a) 0 (leaves m))), (erase_map m). split; [|done].
  intros fuel Hf. unfold read_param, write_group. rewrite write_group_eq by done.
  pose proof (write_lines [] m [] Hg eq_refl ltac:(constructor) []) as Hw. rewrite !app_nil_r in Hw. rewrite Hw.
  rewrite read_leaves.
  - rewrite (rebuild [] m Hg []); [done|]. intros e f He. by apply elem_of_nil in He.
  - pose proof (leaves_ok [] m Hg) as Hl. apply Forall_forall. intros l Hl1. rewrite Forall_forall in Hl. destruct (Hl l Hl1) as (H1 & H2 & H3).
    split_and!; [done|done|done|]. clear Hw Hl Hg Hne. revert Hf Hl1. generalize (leaves m) as ls. intros ls. induction ls as [|l1 ls IH]; intros Hf Hl1; [by apply elem_of_nil in Hl1|].
    simpl in Hf. apply elem_of_cons in Hl1 as [->|Hl1]; [lia|]. apply IH; [lia|done].
Qed.
(** A group that is not the root is written with full paths; reading gives a tree
    that holds it at its path. *)
Lemma ins_all_deep ws L path m2 : ws ≠ [] → Forall (λ l, fst l ≠ []) L → L ≠ [] → ins_all L (path ++ spell ws) [] = Ok m2 →
  ∃ m', ins_all ((λ '(vs, v), (ws ++ vs, v)) <$> L) path [] = Ok m' ∧ at_path m' ws = Some (Group (path ++ spell ws) m2).
Proof.
  revert path m2. induction ws as [|w ws IH]; intros path m2 Hne HL HL0 H; [done|]. destruct ws as [|w2 ws].
  - cbn [spell] in H. rewrite app_nil_r in H. eexists. split.
    + rewrite (list_fmap_ext _ (λ '(vs, v), (w :: vs, v)) L) by (by intros ? [] ?). apply ins_all_new; [constructor|done|done|exact H].
    + simpl. by rewrite decide_True, app_nil_r by done.
  - destruct (IH (path ++ [slash] ++ w) m2) as (m' & E & Ha); [done|done|done|by rewrite <- !app_assoc|].
    eexists. split.
    + rewrite (list_fmap_ext _ ((λ '(vs, v), (w :: vs, v)) ∘ (λ '(vs, v), ((w2 :: ws) ++ vs, v))) L) by (by intros ? [] ?).
      rewrite list_fmap_compose. apply ins_all_new; [constructor| | |exact E].
      * apply Forall_fmap, Forall_true. by intros [].
      * intros Hx. by apply fmap_nil_inv in Hx.
    + rewrite at_cons by done. cbn [app mfind]. rewrite decide_True by done. rewrite Ha. cbn [spell]. by rewrite <- !app_assoc.
Qed.
Theorem C22_subgroup m ws : good (spell ws) m → m ≠ [] → Forall key_ok ws → ws ≠ [] → ∃ n m', (∀ fuel, n ≤ fuel →
  read_param fuel (write_group (spell ws) m) [] [] = Some (Ok m')) ∧ at_path m' ws = Some (erase (Group (spell ws) m)).
Proof.
  intros Hg Hne Hk Hws.
  destruct (ins_all_deep ws (leaves m) [] (erase_map m)) as (m' & E & Ha); [done|apply leaves_nonnil|by eapply leaves_exist| |].
  { cbn [app]; rewrite (rebuild _ m Hg []); [done|]. intros e f He. by apply elem_of_nil in He. }
  set (L := (λ '(vs, v), (ws ++ vs, v)) <$> leaves m).
  exists (S (foldr (λ l a, length (spell (fst l)) + a) 0 L)), m'. split; [|done].
  intros fuel Hf. unfold read_param, write_group. rewrite write_group_eq by done.
  pose proof (write_lines (spell ws) m ws Hg eq_refl Hk []) as Hw. rewrite !app_nil_r in Hw. rewrite Hw.
  replace ((λ '(vs, v), leaf_line (ws ++ vs) v) <$> leaves m) with ((λ '(vs, v), leaf_line vs v) <$> L).
  2:{ unfold L. rewrite <- list_fmap_compose. apply list_fmap_ext. by intros ? [] ?. }
  rewrite read_leaves; [by f_equal|]. apply Forall_forall. intros l Hl1.
  assert (H0 : Forall key_ok (fst l) ∧ fst l ≠ [] ∧ value_ok (snd l)).
  { apply elem_of_list_fmap in Hl1 as ([vs v] & -> & Hl1). pose proof (leaves_ok _ m Hg) as Hl. rewrite Forall_forall in Hl.
    destruct (Hl _ Hl1) as (H1 & H2 & H3). simpl in *. split_and!; [by apply Forall_app|by destruct ws|done]. }
  destruct H0 as (H1 & H2 & H3). split_and!; [done|done|done|]. clear - Hf Hl1. induction L as [|l1 ls IH]; [by apply elem_of_nil in Hl1|].
  simpl in Hf. apply elem_of_cons in Hl1 as [->|Hl1]; [lia|]. apply IH; [lia|done].
Qed.
(** Every tree built by insertions of well-formed names and values comes back exactly. *)
Lemma words_chars name w c : w ∈ words name → c ∈ w → c ∈ name ∧ c ≠ slash.
Proof.
  revert w. induction name as [|d name IH]; intros w Hw Hc; simpl in Hw.
  - apply elem_of_list_singleton in Hw as ->. by apply elem_of_nil in Hc.
  - destruct (decide _) as [->|Hd].
    + apply elem_of_cons in Hw as [->|Hw]; [by apply elem_of_nil in Hc|]. destruct (IH w Hw Hc). split; [by right|done].
    + destruct (words name) as [|w1 ws] eqn:E; [apply elem_of_list_singleton in Hw as ->; apply elem_of_list_singleton in Hc as ->; split; [by left|done]|].
      apply elem_of_cons in Hw as [->|Hw].
      * apply elem_of_cons in Hc as [->|Hc]; [split; [by left|done]|]. destruct (IH w1) as [H1 H2]; [by left|done|]. split; [by right|done].
      * destruct (IH w) as [H1 H2]; [by right|done|]. split; [by right|done].
Qed.
Lemma comps_keys name : equals ∉ name → newline ∉ name → Forall key_ok (comps name).
Proof.
  intros H1 H2. apply Forall_forall. intros w Hw. unfold comps in Hw. apply elem_of_list_filter in Hw as [Hne Hw]. split_and!; [done| | |].
  - intros Hc. by destruct (words_chars _ _ _ Hw Hc).
  - intros Hc. by destruct (words_chars _ _ _ Hw Hc).
  - intros Hc. by destruct (words_chars _ _ _ Hw Hc).
Qed.
Lemma erase_mset k v m : erase_map (mset k v m) = mset k (erase v) (erase_map m).
Proof. induction m as [|[k' v'] m IH]; simpl; [done|]. destruct (decide (k = k')); [done|]. destruct (str_lt k k'); [done|]. simpl. by rewrite IH. Qed.
Lemma erase_mfind k m : mfind k (erase_map m) = erase <$> mfind k m.
Proof. induction m as [|[k' v'] m IH]; simpl; [done|]. by destruct (decide (k = k')). Qed.
Lemma erase_ins ws v path m m' : erase_map m = m → ins ws v path m = Ok m' → erase_map m' = m'.
Proof.
  revert path m m'. induction ws as [|w ws IH]; intros path m m' Hm H; [done|]. destruct ws as [|w2 ws].
  - simpl in H. injection H as <-. rewrite erase_mset, Hm. done.
  - rewrite ins_cons in H by done. destruct (mfind w m) as [[pv pt|p m1]|] eqn:Ew; [done| |].
    + destruct (ins _ _ p m1) as [a| | | | |] eqn:E; simpl in H; simplify_eq. rewrite erase_mset, Hm, erase_group.
      assert (Hm1 : erase_map m1 = m1); [|by rewrite (IH _ _ _ Hm1 E)]. pose proof (erase_mfind w m) as Hx. rewrite Hm, Ew in Hx. cbn [fmap option_fmap option_map] in Hx. rewrite erase_group in Hx. congruence.
    + destruct (ins _ _ _ []) as [a| | | | |] eqn:E; simpl in H; simplify_eq. rewrite erase_mset, Hm, erase_group. by rewrite (IH _ [] _ eq_refl E).
Qed.
Theorem C22_inserted_round_trip fuel as_ m : as_ ≠ [] →
  (∀ n v, (n, v) ∈ as_ → equals ∉ n ∧ newline ∉ n ∧ value_ok v) → assign_all fuel as_ [] [] = Some (Ok m) →
  ∃ k, ∀ fuel', k ≤ fuel' → read_param fuel' (write_group [] m) [] [] = Some (Ok m).
Proof.
  intros Hne Has H.
  assert (G : ∀ m0, good [] m0 → erase_map m0 = m0 → assign_all fuel as_ [] m0 = Some (Ok m) → good [] m ∧ erase_map m = m ∧ m ≠ []).
  { clear H. induction as_ as [|[n v] as_ IH]; intros m0 Hg He H; [done|]. cbn [assign_all] in H.
    destruct (insert_parameter fuel n v [] m0) as [r|] eqn:E; [|done]. cbn [mbind option_bind] in H. destruct r as [m1| | | | |]; try done.
    apply insert_Ok in E as [Hok E]. destruct (Has n v) as (H1 & H2 & H3); [by left|].
    assert (Hg1 : good [] m1) by (eapply good_ins; [done|by apply comps_keys|done|exact E]). assert (He1 : erase_map m1 = m1) by (by eapply erase_ins).
    destruct as_ as [|b as_]; [simpl in H; simplify_eq; split_and!; [done|done|by eapply ins_nonnil]|].
    apply (IH ltac:(done)) with (m0 := m1); [intros; eapply Has; by right|done|done|done]. }
  destruct (G [] (good_nil _) eq_refl H) as (Hg & He & Hn).
  destruct (C22_round_trip m Hg Hn) as (k & m' & Hr & Hm). exists k. intros fuel' Hf. rewrite Hr by done. rewrite erase_group, He in Hm. congruence.
Qed.
Print Assumptions C22_round_trip.
Print Assumptions C22_subgroup.
Print Assumptions C22_inserted_round_trip.
(** The exceptions are real: an empty group comes back with a parameter "dummy",
    and a value that contains a double slash is cut. *)
Theorem C22_empty_group_refuted : ∀ fuel, 10 ≤ fuel → read_param fuel (write_group [] []) [] [] = Some (Ok [(s "dummy", Param (s "0") cmdline)]).
Proof. intros fuel Hf. do 10 (destruct fuel as [|fuel]; [lia|]). reflexivity. Qed.
Theorem C22_comment_value_refuted : ∃ m, insert_parameter 10 (s "url") (s "http://x") [] [] = Some (Ok m) ∧
  ∀ fuel, 10 ≤ fuel → read_param fuel (write_group [] m) [] [] = Some (Ok [(s "url", Param (s "http:") cmdline)]).
Proof. eexists. split; [reflexivity|]. intros fuel Hf. do 10 (destruct fuel as [|fuel]; [lia|]). reflexivity. Qed.
Example C22_example : ∃ m, assign_all 20 [(s "grid/nx", s "3"); (s "b", s "/x y"); (s "grid/sub/z", s "")] [] [] = Some (Ok m) ∧
  write_group [] m = s "/b=/x y
/grid/nx=3
/grid/sub/z=
" ∧ read_param 20 (write_group [] m) [] [] = Some (Ok m).
Proof. eexists. split; [reflexivity|]. split; reflexivity. Qed.

(** ** C23 *)
(** Insertion into an empty group returns exactly for the names that are paths. *)
Theorem C23_insert_terminates name value path : (∃ fuel, insert_parameter fuel name value path [] ≠ None) ↔ name_ok name.
Proof.
  split.
  - intros [fuel H]. destruct (name_ok_dec name) as [|Hn]; [done|]. by rewrite insert_hang_nil in H.
  - intros H. exists (S (length name)). by rewrite insert_ins by (done || lia).
Qed.
(** The part of a line before a comment, and the part of that before the first equals sign. *)
Fixpoint before_comment (l : str) : str :=
  match l with
  | [] => []
  | c :: l' => if starts_with ["/"; "/"]%char l then [] else c :: before_comment l'
  end.
Fixpoint before_equals (l : str) : str :=
  match l with [] => [] | c :: l' => if decide (c = "="%char) then [] else c :: before_equals l' end.
Definition many_equals (l : str) : Prop := ∃ a b c, l = a ++ "="%char :: b ++ "="%char :: c.
Lemma before_comment_find l : before_comment l = match find comment l with Some p => take p l | None => l end.
Proof.
  induction l as [|c l IH]; [done|]. cbn [before_comment find]. change ["/"; "/"]%char with comment.
  destruct (starts_with comment (c :: l)); [done|]. rewrite IH. by destruct (find comment l).
Qed.
Lemma before_equals_find l : before_equals l = match find [equals] l with Some p => take p l | None => l end.
Proof.
  induction l as [|c l IH]; [done|]. cbn [before_equals find starts_with]. change "="%char with equals. destruct (decide (c = equals)) as [->|Hc].
  - by rewrite bool_decide_true.
  - rewrite bool_decide_false by done. cbn [andb]. rewrite IH. by destruct (find [equals] l).
Qed.
(** A line makes reading hang iff it is not a whole-line comment, has at most one
    equals sign and its name is not a path; other lines are processed or rejected. *)
Theorem C23_line l path m :
  let t := before_comment l in
  (starts_with comment l = true ∨ many_equals t ∨ name_ok (before_equals t) →
     ∃ n r, (∀ fuel, n ≤ fuel → read_line fuel l path m = Some r) ∧ (r = BadCast ∨ ∃ m', r = Ok m')) ∧
  (starts_with comment l = false → ¬ many_equals t → ¬ name_ok (before_equals t) →
     ∀ fuel, read_line fuel l path m = None ∨ read_line fuel l path m = Some BadCast) ∧
  (starts_with comment l = false → ¬ many_equals t → ¬ name_ok (before_equals t) →
     ∀ fuel, read_line fuel l path [] = None).
Proof.
  intros t.
  assert (F0 : starts_with comment l = true ↔ find comment l = Some 0).
  { destruct l as [|c l]; [done|]. cbn [find]. destruct (starts_with comment (c :: l)); [done|]. split; [done|]. by destruct (find comment l). }
  assert (R : ∀ fuel m, find comment l ≠ Some 0 → read_line fuel l path m =
     match find_at [equals] t (match find [equals] t with Some p => p + 1 | None => 0 end) with
     | None => insert_parameter fuel (before_equals t) (drop (match find [equals] t with Some p => p + 1 | None => 0 end) t) path m
     | Some _ => Some (Ok m) end).
  { intros fuel m1 Hc. unfold read_line. rewrite decide_False by done. cbv zeta. rewrite <- before_comment_find. fold t.
    rewrite (before_equals_find t). done. }
  assert (ME : many_equals t ↔ find_at [equals] t (match find [equals] t with Some p => p + 1 | None => 0 end) ≠ None).
  { destruct (cut equals t) as [Ht|(w & r & -> & Hw)].
    - rewrite find1_notin by done. unfold find_at. rewrite decide_True by lia. rewrite drop_0, find1_notin by done. split; [|done].
      intros (a & b & c & E). exfalso. apply Ht. rewrite E. apply elem_of_app. right. by left.
    - rewrite find1_in by done. unfold find_at. rewrite app_length. cbn [length]. rewrite decide_True by lia.
      assert (Ed : drop (length w + 1) (w ++ equals :: r) = r) by (by rewrite <- drop_drop, drop_app). rewrite Ed.
      destruct (cut equals r) as [Hr|(w2 & r2 & -> & Hw2)].
      + rewrite find1_notin by done. split; [|done]. intros (a & b & c & E). exfalso. clear R Ed. revert a E. induction w as [|x w IH]; intros a E.
        * destruct a as [|y a]; cbn [app] in E; injection E; intros; subst; apply Hr; [apply elem_of_app; right; by left|].
          apply elem_of_app. right. right. apply elem_of_app. right. by left.
        * apply not_elem_of_cons in Hw as [Hx Hw]. destruct a as [|y a]; cbn [app] in E; injection E as -> E; [by apply Hx|]. by apply (IH Hw a).
      + rewrite find1_in by done. split; [done|]. intros _. by exists w, w2, r2. }
  split_and!.
  - intros H. destruct (decide (find comment l = Some 0)) as [Hc|Hc].
    + exists 0, (Ok m). split; [|eauto]. intros fuel _. unfold read_line. by rewrite decide_True.
    + destruct (find_at [equals] t _) as [i|] eqn:Ei.
      * exists 0, (Ok m). split; [|eauto]. intros fuel _. by rewrite R by done.
      * destruct H as [H|[H|H]]; [by apply F0 in H|by apply ME in H|].
        exists (S (length (before_equals t))). eexists. split.
        -- intros fuel Hf. rewrite R by done. apply insert_ins; [done|lia].
        -- destruct (ins_result (comps (before_equals t)) (drop (match find [equals] t with Some p => p + 1 | None => 0 end) t) path m (comps_ok _ H)) as [[_ ->]|[_ [m' ->]]]; eauto.
  - intros H1 H2 H3 fuel. destruct (find_at [equals] t _) eqn:Ei; [exfalso; by apply H2, ME|]. rewrite R by (intros Hx; apply F0 in Hx; congruence).
    by apply insert_hang.
  - intros H1 H2 H3 fuel. destruct (find_at [equals] t _) eqn:Ei; [exfalso; by apply H2, ME|]. rewrite R by (intros Hx; apply F0 in Hx; congruence).
    by apply insert_hang_nil.
Qed.
(** A file without hanging lines is read to the end. *)
Theorem C23_file_terminates text path m :
  (∀ l, l ∈ lines text → starts_with comment l = true ∨ many_equals (before_comment l) ∨ name_ok (before_equals (before_comment l))) →
  ∃ n r, (∀ fuel, n ≤ fuel → read_param fuel text path m = Some r) ∧ (r = BadCast ∨ ∃ m', r = Ok m').
Proof.
  unfold read_param. generalize (lines text) as ls. intros ls. revert m. induction ls as [|l ls IH]; intros m H.
  - exists 0, (Ok m). eauto.
  - destruct (C23_line l path m) as [HL _]. destruct HL as (n & r & Hr & Hc); [apply H; by left|].
    destruct Hc as [->|[m1 ->]].
    + exists n, BadCast. split; [|by left]. intros fuel Hf. cbn [read_lines]. by rewrite Hr.
    + destruct (IH m1) as (n2 & r2 & Hr2 & Hc2); [intros; apply H; by right|]. exists (n + n2), r2. split; [|done].
      intros fuel Hf. cbn [read_lines]. rewrite Hr by lia. cbn [mbind option_bind]. apply Hr2. lia.
Qed.
(** Lookups always return. *)
Theorem C23_lookup_terminates name m parents : ∃ n, ∀ fuel, n ≤ fuel → get_item fuel name m parents ≠ None ∧ has fuel name m ≠ None.
Proof.
  assert (SL : ∀ name, (snd (split name) ≠ [] → length (snd (split name)) < length name)).
  { clear. intros name. destruct (cut slash name) as [Hn|(w & r & -> & Hw)]; [by rewrite split_plain|]. rewrite split_slash by done. simpl.
    rewrite app_length. simpl. lia. }
  assert (G : ∀ k name, length name < k → ∀ parents m, ∃ n, ∀ fuel, n ≤ fuel → get_item fuel name m parents ≠ None).
  { clear name m parents. induction k as [|k IH]; [lia|]. intros name Hk parents. induction parents as [|p ps IHp]; intros m.
    - destruct (split name) as [w r] eqn:Es. destruct (mfind w m) as [it|] eqn:Ef.
      + destruct (decide (r = [])) as [->|Hr]; [exists 1; intros [|fuel] Hf; [lia|]; cbn [get_item]; by rewrite Es, Ef|].
        destruct it as [|pp m1]; [exists 1; intros [|fuel] Hf; [lia|]; cbn [get_item]; rewrite Es, Ef; by rewrite decide_False|].
        specialize (SL name). rewrite Es in SL. simpl in SL. destruct (IH r ltac:(specialize (SL Hr); lia) [m] m1) as [n Hn].
        exists (S n). intros [|fuel] Hf; [lia|]. cbn [get_item]. rewrite Es, Ef, decide_False by done. apply Hn. lia.
      + exists 1. intros [|fuel] Hf; [lia|]. cbn [get_item]. by rewrite Es, Ef.
    - destruct (split name) as [w r] eqn:Es. destruct (mfind w m) as [it|] eqn:Ef.
      + destruct (decide (r = [])) as [->|Hr]; [exists 1; intros [|fuel] Hf; [lia|]; cbn [get_item]; by rewrite Es, Ef|].
        destruct it as [|pp m1]; [exists 1; intros [|fuel] Hf; [lia|]; cbn [get_item]; rewrite Es, Ef; by rewrite decide_False|].
        specialize (SL name). rewrite Es in SL. simpl in SL. destruct (IH r ltac:(specialize (SL Hr); lia) (m :: p :: ps) m1) as [n Hn].
        exists (S n). intros [|fuel] Hf; [lia|]. cbn [get_item]. rewrite Es, Ef, decide_False by done. apply Hn. lia.
      + destruct (IHp p) as [n Hn]. exists (S n). intros [|fuel] Hf; [lia|]. cbn [get_item]. rewrite Es, Ef. apply Hn. lia. }
  assert (H : ∀ k name m, length name < k → ∀ fuel, k ≤ fuel → has fuel name m ≠ None).
  { clear name m parents G. induction k as [|k IH]; intros name m Hk fuel Hf; [lia|]. destruct fuel as [|fuel]; [lia|]. cbn [has].
    specialize (SL name). destruct (split name) as [w r]. simpl in SL. destruct (mfind w m) as [it|]; [|done].
    destruct (decide (r = [])) as [|Hr]; [done|]. destruct it as [|pp m1]; [done|]. apply IH; [specialize (SL Hr); lia|lia]. }
  destruct (G (S (length name)) name ltac:(lia) parents m) as [n Hn]. exists (n + S (length name)). intros fuel Hf. split; [apply Hn; lia|].
  apply (H (S (length name))); lia.
Qed.
(** A blank line, or "=5", never finishes. *)
Theorem C23_blank_line_refuted : ∃ text, ∀ fuel, read_param fuel text [] [] = None.
Proof.
  exists (s "
a=1
"). intros fuel. unfold read_param. change (lines _) with [[]; s "a=1"]. cbn [read_lines].
  destruct (C23_line [] [] []) as (_ & _ & H). rewrite H; [done|done| |apply not_name_ok_nil]. by intros (a & b & c & Hx); destruct a.
Qed.
Theorem C23_argument_refuted files read_xml : ∃ args, ∀ fuel, parse_args files read_xml fuel args [] = None.
Proof.
  exists [s "=5"]. intros fuel. unfold parse_args. change (sort_args _) with (@nil str, [(@nil ascii, s "5")]). cbn [read_files mbind option_bind assign_all].
  rewrite insert_hang_nil; [done|apply not_name_ok_nil].
Qed.
Print Assumptions C23_insert_terminates.
Print Assumptions C23_line.
Print Assumptions C23_file_terminates.
Print Assumptions C23_lookup_terminates.
Print Assumptions C23_blank_line_refuted.
Print Assumptions C23_argument_refuted.
Example C23_example : ∃ m, ∀ fuel, 30 ≤ fuel → read_param fuel (s "// header
a=1=2
name
a/b=3 // rest") [] [] = Some (Ok m).
Proof. eexists. intros fuel Hf. do 30 (destruct fuel as [|fuel]; [lia|]). reflexivity. Qed.
