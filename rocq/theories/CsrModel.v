(** Model of the compressed sparse row construction of
    opm/core/linalg/sparse_sys.c, of the push-back idiom its callers use, and
    of the sparsity set-up in opm/core/pressure/tpfa/ifs_tpfa.c.

    Simplifications valid for the whole file: [int] and [size_t] values are
    [nat] (no overflow; the values stored in ia and ja are never negative, and
    the one subtraction in the code never gets below 0, which is proved);
    [None] is undefined behaviour or a failed assertion; the value array sa is
    a list of some abstract type whose content the functions modelled here
    never read. *)
From Verif Require Import Base.

(** ** Loops shared by all clients of the idiom *)

(** [ia[k + 1] += 1]: ifs_tpfa.c:122-123, partition.c:253. *)
Definition count_one (ia : list nat) (k : nat) : option (list nat) :=
  x ← ia !! S k; upd ia (S k) (S x).
Fixpoint count_all (ia : list nat) (ks : list nat) : option (list nat) :=
  match ks with [] => Some ia | k :: ks => ia ← count_one ia k; count_all ia ks end.

(** The loop [for (i = 1; i <= m; i++) { ia[0] += ia[i]; ia[i] = ia[0] - ia[i]; }]:
    sparse_sys.c:100-103, partition.c:255-258.  [n] iterations are left. *)
Fixpoint scan_loop (n i : nat) (ia : list nat) : option (list nat) :=
  match n with
  | 0 => Some ia
  | S n =>
    a ← ia !! 0; x ← ia !! i;
    ia ← upd ia 0 (a + x);
    a ← ia !! 0; x ← ia !! i;
    ia ← upd ia i (a - x);
    scan_loop n (S i) ia
  end.

(** [ja[ia[k + 1] ++] = v]: ifs_tpfa.c:149,158-159, partition.c:262. *)
Definition push_one (s : list nat * list nat) (kv : nat * nat) : option (list nat * list nat) :=
  let '(ia, ja) := s in
  p ← ia !! S kv.1;
  ja ← upd ja p kv.2;
  ia ← upd ia (S kv.1) (S p);
  Some (ia, ja).
Fixpoint push_all (s : list nat * list nat) (kvs : list (nat * nat)) : option (list nat * list nat) :=
  match kvs with [] => Some s | kv :: kvs => s ← push_one s kv; push_all s kvs end.

(** ** sparse_sys.c *)

(** struct CSRMatrix, sparse_sys.h.  [None] in [a_ja] is the NULL pointer; the
    array sa is always allocated together with ja and is left out. *)
Record csr := Csr { a_m : nat; a_nnz : nat; a_ia : list nat; a_ja : option (list nat) }.

(** csrmatrix_new_count_nnz, sparse_sys.c:29-57.  Inner option: the returned
    pointer.  When the second allocation fails csrmatrix_delete (166-178) frees
    new->sa and new->ja, which have not been assigned: undefined behaviour. *)
Definition new_count_nnz (m : nat) (o : list bool) : option (option csr * list bool) :=
  if decide (0 < m) then
    let '(ok, o) := next_alloc o in
    if ok then
      let '(ok, o) := next_alloc o in
      if ok then Some (Some (Csr m 0 (replicate (m + 1) 0) None), o)
      else None
    else Some (None, o)
  else None.

(** csrmatrix_new_elms_pushback, sparse_sys.c:91-121.  [junk] is the content of
    freshly allocated memory.  Returns the new nnz. *)
Definition new_elms_pushback (junk : nat → nat) (A : csr) (o : list bool) :
    option (nat * csr * list bool) :=
  a0 ← a_ia A !! 0;
  if decide (a0 = 0) then
    ia ← scan_loop (a_m A) 1 (a_ia A);
    nnz ← ia !! 0;
    if decide (0 < nnz) then
      ia ← upd ia 0 0;
      let '(ok1, o) := next_alloc o in
      let '(ok2, o) := next_alloc o in
      if ok1 && ok2 then Some (nnz, Csr (a_m A) nnz ia (Some (junk <$> seq 0 nnz)), o)
      else Some (0, Csr (a_m A) 0 ia None, o)
    else None
  else None.

(** The callers' counting, [A->ia[k + 1] += 1] (ifs_tpfa.c:112-136), and
    push-back, [A->ja[A->ia[k + 1] ++] = v] (ifs_tpfa.c:147-173). *)
Definition csr_count (A : csr) (ks : list nat) : option csr :=
  ia ← count_all (a_ia A) ks; Some (Csr (a_m A) (a_nnz A) ia (a_ja A)).
Definition csr_push (A : csr) (kvs : list (nat * nat)) : option csr :=
  ja ← a_ja A;
  s ← push_all (a_ia A, ja) kvs;
  Some (Csr (a_m A) (a_nnz A) s.1 (Some s.2)).

Section library.
(** C's qsort and bsearch with the comparison function cmp_row_elems
    (sparse_sys.c:124-130), as parameters: what the C standard says about them
    is a hypothesis of the theorems that need it. *)
Variable qsort : list nat → list nat.
Variable bsearch : nat → list nat → option nat.

(** csrmatrix_sortrows, sparse_sys.c:133-147.  qsort works in place on
    [ja + ia[i] .. ja + ia[i+1]). *)
Fixpoint sort_loop (n i : nat) (ia ja : list nat) : option (list nat) :=
  match n with
  | 0 => Some ja
  | S n =>
    b ← ia !! i; e ← ia !! S i;
    if decide (b ≤ e) then
      r ← slice ja b (e - b);
      ja ← memcpy ja b (qsort r);
      sort_loop n (S i) ia ja
    else None
  end.
Definition sortrows (A : csr) : option csr :=
  ja ← a_ja A;
  ja ← sort_loop (a_m A) 0 (a_ia A) ja;
  Some (Csr (a_m A) (a_nnz A) (a_ia A) (Some ja)).

(** csrmatrix_elm_index, sparse_sys.c:150-163.  [None] when the assertion
    [p != NULL] fails. *)
Definition elm_index (i j : nat) (A : csr) : option nat :=
  ja ← a_ja A;
  b ← a_ia A !! i; e ← a_ia A !! S i;
  if decide (b ≤ e) then
    r ← slice ja b (e - b);
    p ← bsearch j r;
    Some (b + p)
  else None.

(** ** ifs_tpfa_construct_matrix, ifs_tpfa.c:92-182.

    [nc] cells; [faces] the pairs in face_cells, [None] for a negative entry;
    [wells] the list of cells perforated by each well, i.e. the contents of
    well_cells between consecutive well_connpos ([None] for W == NULL).  The
    counting and the filling loops run over the same connections in the same
    order: self connections, faces, wells. *)
Definition self_keys (nnu : nat) : list (nat * nat) := (λ i, (i, i)) <$> seq 0 nnu.
Definition face_keys (faces : list (option nat * option nat)) : list (nat * nat) :=
  flat_map (λ f, match f with (Some c1, Some c2) => [(c1, c2); (c2, c1)] | _ => [] end) faces.
Definition well_keys (nc : nat) (wells : list (list nat)) : list (nat * nat) :=
  concat (imap (λ w cells, flat_map (λ c, [(c, nc + w); (nc + w, c)]) cells) wells).

(** ifs_tpfa.c:112-114 assigns 1 to the fresh zero entries; modelled as
    [count_one] like the other increments. *)
Definition construct_matrix (junk : nat → nat) (nc : nat)
    (faces : list (option nat * option nat)) (wells : option (list (list nat)))
    (o : list bool) : option (option csr * list bool) :=
  let wl := default [] wells in
  let nnu := nc + length wl in
  '(A, o) ← new_count_nnz nnu o;
  match A with
  | None => Some (None, o)
  | Some A =>
    A ← csr_count A (fst <$> self_keys nnu);
    A ← csr_count A (fst <$> face_keys faces);
    A ← csr_count A (fst <$> well_keys nc wl);
    '(nnz, A, o) ← new_elms_pushback junk A o;
    if decide (nnz = 0) then Some (None, o)
    else
      A ← csr_push A (self_keys nnu);
      A ← csr_push A (face_keys faces);
      A ← csr_push A (well_keys nc wl);
      e ← a_ia A !! nnu;
      if decide (e = nnz) then A ← sortrows A; Some (Some A, o) else None
  end.
End library.
