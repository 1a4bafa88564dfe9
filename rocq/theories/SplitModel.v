(** Model of the splitting of disconnected blocks in
    opm/core/pressure/msmfem/partition.c.

    Simplifications valid for the whole file: [int] has unlimited range; cell
    and block numbers and array positions are [nat]; the neighbourship is a list
    of pairs with [None] for a negative entry; [None] as a result is undefined
    behaviour, a failed assertion, or dfs running out of fuel. *)
From Verif Require Import Base CsrModel PartModel DfsModel.

(** The loop at partition.c:341-346: [pc2c[i] += 1] followed by the body of the
    usual scan.  [n] iterations are left. *)
Fixpoint scan1_loop (n i : nat) (ia : list nat) : option (list nat) :=
  match n with
  | 0 => Some ia
  | S n =>
    x ← ia !! i;
    ia ← upd ia i (x + 1);
    a ← ia !! 0; x ← ia !! i;
    ia ← upd ia 0 (a + x);
    a ← ia !! 0; x ← ia !! i;
    ia ← upd ia i (a - x);
    scan1_loop n (S i) ia
  end.

(** partition_create_c2c, partition.c:311-379.  Inner option: [None] when an
    allocation fails (the pointers are NULL then).

    After the loop at 341-346 pc2c[0] holds the number of connections, and the
    code never sets it back to 0.  With [reset = true] this definition adds the
    statement [pc2c[0] = 0] before the return; the code that exists is
    [reset = false]. *)
Definition create_c2c (reset : bool) (junk : nat → nat) (nc : nat)
    (neigh : list (option nat * option nat)) (o : list bool) :
    option (option (list nat * list nat) * list bool) :=
  if decide (0 < nc) then
    if decide (0 < length neigh) then
      let '(ok, o) := next_alloc o in
      if ok then
        pc2c ← zero_loop (nc + 1) 0 (junk <$> seq 0 (nc + 1));
        pc2c ← count_all pc2c (fst <$> face_keys neigh);
        pc2c ← scan1_loop nc 1 pc2c;
        nnz ← pc2c !! 0;
        let '(ok, o) := next_alloc o in
        if ok then
          '(pc2c, c2c) ← push_all (pc2c, junk <$> seq 0 nnz) (self_keys nc);
          '(pc2c, c2c) ← push_all (pc2c, c2c) (face_keys neigh);
          pc2c ← (if reset then upd pc2c 0 0 else Some pc2c);
          Some (Some (pc2c, c2c), o)
        else Some (None, o)
      else Some (None, o)
    else None
  else None.

(** count_block_conns, partition.c:430-452: inner and outer loop.  The numbers
    of connections are [Z] because the difference of two pointers is negative
    for cell 0 in the code that exists. *)
Fixpoint count_conns (n i : nat) (b2c pc2c : list nat) (acc : Z) : option Z :=
  match n with
  | 0 => Some acc
  | S n =>
    c ← b2c !! i; e ← pc2c !! S c; s ← pc2c !! c;
    count_conns n (S i) b2c pc2c (acc + (Z.of_nat e - Z.of_nat s))
  end.
Fixpoint count_block_conns (n b i : nat) (pb2c b2c pc2c : list nat) (maxc : nat) (maxn : Z) :
    option (nat * Z) :=
  match n with
  | 0 => Some (maxc, maxn)
  | S n =>
    e ← pb2c !! S b;
    s ← pb2c !! b;
    k ← count_conns (e - i) i b2c pc2c 0;
    count_block_conns n (S b) (Nat.max i e) pb2c b2c pc2c (Nat.max maxc (e - s)) (Z.max maxn k)
  end.

(** allocate_dfs_arrays, partition.c:397-424. *)
Definition allocate_dfs (junk : nat → nat) (n nnz : nat) (o : list bool) :
    option (list nat * list nat * list Z * list nat) :=
  let '(ok1, o) := next_alloc o in
  let '(ok2, o) := next_alloc o in
  let '(ok3, o) := next_alloc o in
  let '(ok4, o) := next_alloc o in
  if ok1 && ok2 && ok3 && ok4 then
    Some (junk <$> seq 0 (n + 1), junk <$> seq 0 nnz,
          (λ i, Z.of_nat (junk i)) <$> seq 0 n, junk <$> seq 0 (2 * n))
  else None.

(** create_block_conns, partition.c:459-507. *)
Section conns.
Variable b : nat.
Variables p loc pb2c b2c pc2c c2c : list nat.
(** Inner counting loop, 480-485; [n] connections are left. *)
Fixpoint bc_count (n j c : nat) (ia : list nat) : option (list nat) :=
  match n with
  | 0 => Some ia
  | S n =>
    d ← c2c !! j; q ← p !! d;
    ia ← (if decide (q = b) then l ← loc !! c; count_one ia l else Some ia);
    bc_count n (S j) c ia
  end.
(** Outer counting loop, 476-486; [n] cells are left and [s] is pb2c[b]. *)
Fixpoint bc_count_cells (n i s : nat) (ia : list nat) : option (list nat) :=
  match n with
  | 0 => Some ia
  | S n =>
    c ← b2c !! i; l ← loc !! c;
    if decide (l = i - s) then
      js ← pc2c !! c; je ← pc2c !! S c;
      ia ← bc_count (je - js) js c ia;
      bc_count_cells n (S i) s ia
    else None
  end.
(** Filling loops, 495-504. *)
Fixpoint bc_push (n j c : nat) (t : list nat * list nat) : option (list nat * list nat) :=
  match n with
  | 0 => Some t
  | S n =>
    d ← c2c !! j; q ← p !! d;
    t ← (if decide (q = b) then l ← loc !! c; m ← loc !! d; push_one t (l, m) else Some t);
    bc_push n (S j) c t
  end.
Fixpoint bc_push_cells (n i : nat) (t : list nat * list nat) : option (list nat * list nat) :=
  match n with
  | 0 => Some t
  | S n =>
    c ← b2c !! i;
    js ← pc2c !! c; je ← pc2c !! S c;
    t ← bc_push (je - js) js c t;
    bc_push_cells n (S i) t
  end.
Definition create_block_conns (ia ja : list nat) : option (list nat * list nat) :=
  e ← pb2c !! S b; s ← pb2c !! b;
  let nc := e - s in
  ia ← zero_loop (nc + 1) 0 ia;
  ia ← bc_count_cells nc s s ia;
  a ← ia !! 0;
  if decide (a = 0) then
    ia ← scan_loop nc 1 ia;
    '(ia, ja) ← bc_push_cells nc s (ia, ja);
    ia ← upd ia 0 0;
    Some (ia, ja)
  else None.
End conns.

(** Assignment of new block numbers, partition.c:558-562; [n] cells are left,
    [s] is pb2c[b]. *)
Fixpoint renumber (n i s : nat) (b2c : list nat) (colour : list Z) (maxblk ret : Z) (p : list nat) :
    option (list nat) :=
  match n with
  | 0 => Some p
  | S n =>
    x ← colour !! (i - s);
    p ← (if decide (x > 0)%Z then c ← b2c !! i; upd p c (Z.to_nat (maxblk + ret + x)) else Some p);
    renumber n (S i) s b2c colour maxblk ret p
  end.

(** The loop over the blocks, partition.c:549-567; [n] blocks are left. *)
Fixpoint split_loop (fuel n b : nat) (maxblk : Z) (loc pb2c b2c pc2c c2c : list nat)
    (ia ja : list nat) (colour : list Z) (work : list nat) (ret : Z) (p : list nat) :
    option (Z * list nat) :=
  match n with
  | 0 => Some (ret, p)
  | S n =>
    '(ia, ja) ← create_block_conns b p loc pb2c b2c pc2c c2c ia ja;
    e ← pb2c !! S b; s ← pb2c !! b;
    '(ncol, colour, work) ← dfs_call fuel (e - s) ia ja colour work;
    '(ret, p) ← (if decide (1 < ncol) then
                   p ← renumber (e - s) s s b2c colour maxblk ret p;
                   Some ((ret + (Z.of_nat ncol - 1))%Z, p)
                 else Some (ret, p));
    split_loop fuel n (S b) maxblk loc pb2c b2c pc2c c2c ia ja colour work ret p
  end.

(** partition_split_disconnected, partition.c:521-582: return value and new p. *)
Definition split (reset : bool) (junk : nat → nat) (fuel : nat)
    (neigh : list (option nat * option nat)) (p : list nat) (o : list bool) :
    option (Z * list nat) :=
  let nc := length p in
  let maxblk := max_block p in
  let '(_, inv, o) := allocate_inverse junk nc maxblk o in
  '(c2c, o) ← create_c2c reset junk nc neigh o;
  let '(ok, o) := next_alloc o in
  match inv, c2c, ok with
  | Some (pb2c, b2c), Some (pc2c, c2c), true =>
    '(pb2c, b2c) ← invert p pb2c b2c;
    let nblk := Z.to_nat (maxblk + 1) in
    loc ← localidx nblk pb2c b2c (junk <$> seq 0 nc);
    '(maxc, maxn) ← count_block_conns nblk 0 0 pb2c b2c pc2c 0 0;
    match allocate_dfs junk maxc (Z.to_nat maxn) o with
    | Some (ia, ja, colour, work) =>
      split_loop fuel nblk 0 maxblk loc pb2c b2c pc2c c2c ia ja colour work 0 p
    | None => Some ((-1)%Z, p)
    end
  | _, _, _ => Some ((-1)%Z, p)
  end.
