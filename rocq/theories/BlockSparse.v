(** * BlockSparse: model of tensornetwork/block_sparse/blocksparse_utils.py,
    blocksparsetensor.py and of the partition and stride helpers of utils.py.

    One Gallina function per python function.  Exceptions are [Raise].  Simplifications:
    sizes and positions are natural numbers (numpy: uint32/int64, no overflow); the block cache
    is modelled separately in BlockCache.v; the two sizes at which the code switches between
    equivalent algorithms (20000 in [compute_fused_charge_degeneracies], 15 in
    [_find_diagonal_sparse_blocks]) are the arguments [lim] and [blim] and the contents of
    uninitialised memory ([np.empty]) is the argument [junk]: all theorems hold for every value
    of them; axes are nonnegative; [np.argsort] is a stable sort. *)
From Verif Require Import Prelude Algebra Tensor Res Charge.
Set Implicit Arguments.
Unset Strict Implicit.

(** ** numpy helpers *)

(** [np.cumsum] *)
Fixpoint cumsum_from (acc : nat) (l : list nat) : list nat :=
  match l with [] => [] | x :: r => (acc + x) :: cumsum_from (acc + x) r end.
Definition cumsum := cumsum_from 0.
(** [np.flatnonzero], [np.nonzero(...)[0]], [np.where(...)[0]] *)
Definition flatnonzero (bs : list bool) : list nat := filter (fun j => nth j bs false) (seq 0 (length bs)).
(** boolean mask indexing [a[mask]] *)
Definition masked {A} (d : A) (a : list A) (bs : list bool) : list A := gather d a (flatnonzero bs).
(** [a[i] = v] and [a[ps] = vs] *)
Fixpoint set_nth {A} (i : nat) (v : A) (l : list A) : list A :=
  match l, i with
  | [], _ => []
  | _ :: r, 0 => v :: r
  | x :: r, S k => x :: set_nth k v r
  end.
Definition scatter {A} (a : list A) (ps : list nat) (vs : list A) : list A :=
  fold_left (fun acc pv => set_nth (fst pv) (snd pv) acc) (combine ps vs) a.
Definition isSome {A} (o : option A) : bool := match o with Some _ => true | None => false end.
(** [a[a >= 0]] where -1 is [None] *)
Definition somes {A} (l : list (option A)) : list A :=
  flat_map (fun o => match o with Some k => [k] | None => [] end) l.
(** [m = -ones(n); m[ps] = arange(len(ps))] *)
Definition inv_map (n : nat) (ps : list nat) : list (option nat) :=
  map (fun j => if mem j ps then Some (nindex j ps) else None) (seq 0 n).

(** utils.py:96-110 [fuse_ndarrays], 80-94 [fuse_stride_arrays] *)
Definition fuse_arrays (arrays : list (list nat)) : list nat :=
  match arrays with
  | [] => []
  | a :: r => fold_left (fun acc b => flat_map (fun x => map (fun y => x + y) b) acc) r a
  end.
Definition fuse_stride_arrays (dims strides : list nat) : list nat :=
  fuse_arrays (map (fun ds => map (fun i => snd ds * i) (seq 0 (fst ds))) (combine dims strides)).
(** utils.py:112-130 [fuse_degeneracies] *)
Definition fuse_degeneracies (a b : list nat) : list nat := flat_map (fun x => map (fun y => x * y) b) a.

(** utils.py:139-163 [_find_best_partition] *)
Definition absdiff (a b : nat) : nat := (a - b) + (b - a).
Definition find_best_partition (dims : list nat) : res nat :=
  if length dims <=? 1 then Raise
  else
    let diffs := map (fun n => absdiff (nprod (firstn n dims)) (nprod (skipn n dims))) (seq 1 (length dims - 1)) in
    let m := fold_right Nat.min (nth 0 diffs 0) diffs in
    let min_inds := flatnonzero (map (fun x => x =? m) diffs) in
    if 1 <? length min_inds then
      let right_dims := map (fun i => nprod (skipn (i + 1) dims)) min_inds in
      Ok (nth (nindex (list_max right_dims) right_dims) min_inds 0 + 1)
    else Ok (nth 0 min_inds 0 + 1).

Section Blocks.
  Context {G : chg}.
  Variables lim blim junk : nat.
  Notation bc := (bc G).

  (** blocksparse_utils.py:121-159 [compute_fused_charge_degeneracies] *)
  Definition fused_degens (cs : list bc) (fs : list bool) : res (bc * list nat) :=
    if length cs =? 1 then
      match cs, fs with
      | c :: _, f :: _ => let '(u, _, n) := bunique (dual c f) in Ok (u, n)
      | _, _ => Raise
      end
    else
      let dims := map (fun c => bdim c) cs in
      if nprod dims <? lim then
        rbind (fuse_charges cs fs) (fun c => let '(u, _, n) := bunique c in Ok (u, n))
      else
        rbind (find_best_partition dims) (fun p =>
        rbind (fuse_charges (firstn p cs) (firstn p fs)) (fun fl =>
        rbind (fuse_charges (skipn p cs) (skipn p fs)) (fun fr =>
          let '(lu, _, ldeg) := bunique fl in
          let '(ru, _, rdeg) := bunique fr in
          let '(u, labs, _) := bunique (badd lu ru) in
          let deg := fuse_degeneracies ldeg rdeg in
          let sorted := sort (fun a b => fst a <=? fst b) (combine labs deg) in
          let sl := map fst sorted in
          let all := cumsum (map snd sorted) in
          let cuts := flatnonzero (map (fun j => negb (nth j sl 0 =? nth (S j) sl 0)) (seq 0 (length sl - 1))) in
          let cum := gather 0 all cuts in
          match all with
          | [] => Raise
          | _ => Ok (u, map (fun ab => fst ab - snd ab) (combine (cum ++ [last all 0]) (0 :: cum)))
          end))).

  (** blocksparse_utils.py:161-186 [compute_unique_fused_charges] *)
  Definition unique_only (c : bc) : bc := fst (fst (bunique c)).
  Definition unique_fused (cs : list bc) (fs : list bool) : res bc :=
    match cs, fs with
    | c :: cs', f :: fs' =>
        if length cs' <=? length fs' then
          Ok (fold_left (fun acc cf => unique_only (badd acc (dual (unique_only (fst cf)) (snd cf))))
                (combine cs' fs') (unique_only (dual c f)))
        else Raise
    | _, _ => Raise
    end.

  (** blocksparse_utils.py:188-213 [compute_num_nonzero] *)
  Definition is_q (q x : G) : bool := if qdec x q then true else false.
  Definition num_nonzero (cs : list bc) (fs : list bool) : res nat :=
    if existsb (fun c => bdim c =? 0) cs then Ok 0
    else rbind (fused_degens cs fs) (fun ud =>
      match flatnonzero (map (is_q qid) (rep (fst ud))) with
      | [] => Ok 0
      | k :: _ => Ok (nth k (snd ud) 0)
      end).

  (** blocksparse_utils.py:215-328 [reduce_charges] with [return_locations=True] (the locations
      do not influence the first component) *)
  Definition reduce_charges (cs : list bc) (fs : list bool) (targets : list G) (strides : option (list nat))
    : res (bc * list nat) :=
    let dims := map (fun c => bdim c) cs in
    if length cs =? 1 then
      match cs, fs with
      | c :: _, f :: _ =>
          breduce (dual c f) targets (match strides with Some s => nth 0 s 0 | None => 1 end)
      | _, _ => Raise
      end
    else
      rbind (find_best_partition dims) (fun p =>
      rbind (fuse_charges (firstn p cs) (firstn p fs)) (fun L =>
      rbind (fuse_charges (skipn p cs) (skipn p fs)) (fun R =>
        let comb := fuse2 (uniques L) (uniques R) in
        if (length comb =? 0) || (length (labels L) =? 0) || (length (labels R) =? 0) then Ok (Lab [] [], [])
        else
          let uc := uniq comb in
          let comb_labels := inverse comb in
          let rq := isect uc targets in
          let l2u := locs_in uc rq in
          let map_to_kept := inv_map (length uc) l2u in
          let temp_label n := map (fun m => nth (nth (n * num_unique R + m) comb_labels 0) map_to_kept None) (labels R) in
          let reduced_rows := map (fun n => somes (temp_label n)) (seq 0 (num_unique L)) in
          let reduced_labels := flat_map (fun n => nth n reduced_rows []) (labels L) in
          let keep n := map isSome (temp_label n) in
          let locs :=
            match strides with
            | Some st =>
                let row_pos := fuse_stride_arrays (firstn p dims) (firstn p st) in
                let col_pos := fuse_stride_arrays (skipn p dims) (skipn p st) in
                let row_locs := map (fun n => masked 0 col_pos (keep n)) (seq 0 (num_unique L)) in
                flat_map (fun n => map (fun j => nth n row_pos 0 + j) (nth (nth n (labels L) 0) row_locs []))
                  (seq 0 (bdim L))
            | None =>
                let row_locs := map (fun n => flatnonzero (keep n)) (seq 0 (num_unique L)) in
                flat_map (fun n => map (fun j => n * bdim R + j) (nth (nth n (labels L) 0) row_locs []))
                  (seq 0 (bdim L))
            end in
          Ok (Lab rq reduced_labels, locs)))).

  (** result of the block search: block maps, charges of the blocks, shapes of the blocks *)
  Record blocks := Blocks { bmaps : list (list nat); bqs : bc; bdims : list (nat * nat) }.

  (** blocksparse_utils.py:330-428 [_find_diagonal_sparse_blocks] *)
  Definition diag_blocks (cs : list bc) (fs : list bool) (partition : nat) : res blocks :=
    if (partition =? 0) || (partition =? length cs) then
      rbind (num_nonzero cs fs) (fun n =>
        match cs with
        | [] => Raise
        | _ => Ok (Blocks [seq 0 n] (Lab [qid] [0]) [if partition =? length fs then (n, 1) else (1, n)])
        end)
    else
      rbind (fused_degens (firstn partition cs) (firstn partition fs)) (fun rd =>
      rbind (fused_degens (skipn partition cs) (map negb (skipn partition fs))) (fun cd =>
        let row_degen := snd rd in
        let col_degen := snd cd in
        let bq := isect (uniques (fst rd)) (uniques (fst cd)) in
        let row_to_block := locs_in (uniques (fst rd)) bq in
        let col_to_block := locs_in (uniques (fst cd)) bq in
        let num_blocks := length bq in
        if num_blocks =? 0 then Ok (Blocks [] (Lab [] []) [])
        else
          rbind (reduce_charges (firstn partition cs) (firstn partition fs) bq None) (fun ri =>
            let row_labels := labels (fst ri) in
            let row_num_nz := gather 0 col_degen (gather 0 col_to_block row_labels) in
            let cumulate_num_nz := 0 :: cumsum (removelast row_num_nz) in
            let row_locs n :=
              if num_blocks <? blim then map (fun l => l =? n) row_labels
              else map (fun j => existsb (fun lj => (fst lj =? n) && (snd lj =? j))
                                   (combine row_labels (seq 0 (length row_labels))))
                     (seq 0 (length row_labels)) in
            let dims := map (fun n => (nth (nth n row_to_block 0) row_degen 0, nth (nth n col_to_block 0) col_degen 0))
                          (seq 0 num_blocks) in
            let maps := map (fun n => flat_map (fun s => map (fun j => s + j) (seq 0 (snd (nth n dims (0, 0)))))
                                        (masked 0 cumulate_num_nz (row_locs n)))
                          (seq 0 num_blocks) in
            Ok (Blocks maps (Lab bq (seq 0 num_blocks)) dims)))).

  (** blocksparse_utils.py:430-634 [_find_transposed_diagonal_sparse_blocks] *)
  Definition dense_to_sparse (width : nat) (col_labels col_map col_degen : list nat) : list nat :=
    fold_left (fun acc cm => scatter acc (flatnonzero (map (fun l => l =? cm) col_labels)) (seq 0 (nth cm col_degen 0)))
      col_map (repeat junk width).
  Definition tr_blocks (cs : list bc) (fs : list bool) (tr_partition : nat) (order : list nat) : res blocks :=
    if leqb Nat.eq_dec order (seq 0 (length cs)) then diag_blocks cs fs tr_partition
    else
      let dims := map (fun c => bdim c) cs in
      let strides := map (fun i => nprod (skipn (S i) dims)) (seq 0 (length dims)) in
      rbind (find_best_partition dims) (fun op =>
      let width := nprod (skipn op dims) in
      rbind (unique_fused (firstn op cs) (firstn op fs)) (fun urow =>
      rbind (fused_degens (skipn op cs) (map negb (skipn op fs))) (fun ucd =>
        let ucol := fst ucd in
        let col_degen := snd ucd in
        let obq := isect (uniques urow) (uniques ucol) in
        let row_map := locs_in (uniques urow) obq in
        let col_map := locs_in (uniques ucol) obq in
        if length obq =? 0 then Ok (Blocks [] (Lab [] []) [])
        else
          rbind (fuse_charges (firstn op cs) (firstn op fs)) (fun row_ind =>
          rbind (fuse_charges (skipn op cs) (map negb (skipn op fs))) (fun col_ind =>
            let inv_row_map := inv_map (length (uniques urow)) row_map in
            let all_degens := map (fun l => match nth l inv_row_map None with
                                            | Some k => nth (nth k col_map 0) col_degen 0
                                            | None => 0
                                            end) (labels row_ind) in
            let all_cumul_degens := cumsum (0 :: removelast all_degens) in
            let d2s := dense_to_sparse width (labels col_ind) col_map col_degen in
            let pos x y := nth x all_cumul_degens 0 + nth y d2s 0 in
            let new_strides := gather 0 strides order in
            let ocs := gather (Raw []) cs order in
            let ofs := gather false fs order in
            let row_cs := firstn tr_partition ocs in
            let col_cs := skipn tr_partition ocs in
            let row_fs := firstn tr_partition ofs in
            let col_fs := map negb (skipn tr_partition ofs) in
            if tr_partition =? 0 then
              rbind (fused_degens col_cs col_fs) (fun cd =>
                let bq := isect (uniques (@identity_charges G 1)) (uniques (fst cd)) in
                let ds := gather 0 (snd cd) (locs_in (uniques (fst cd)) bq) in
                if length ds =? 1 then
                  rbind (reduce_charges col_cs col_fs bq (Some (skipn tr_partition new_strides))) (fun cl =>
                    let locs := masked 0 (snd cl) (map (fun l => l =? 0) (labels (fst cl))) in
                    Ok (Blocks [map (fun x => pos (x / width) (x mod width)) locs]
                          (Lab bq (seq 0 (length bq))) [(1, nth 0 ds 0)]))
                else Raise)
            else if tr_partition =? length cs then
              rbind (fused_degens row_cs row_fs) (fun rd =>
                let bq := isect (uniques (fst rd)) (uniques (@identity_charges G 1)) in
                let ds := gather 0 (snd rd) (locs_in (uniques (fst rd)) bq) in
                if length ds =? 1 then
                  rbind (reduce_charges row_cs row_fs bq (Some (firstn tr_partition new_strides))) (fun rl =>
                    let locs := masked 0 (snd rl) (map (fun l => l =? 0) (labels (fst rl))) in
                    Ok (Blocks [map (fun x => pos (x / width) (x mod width)) locs]
                          (Lab bq (seq 0 (length bq))) [(nth 0 ds 0, 1)]))
                else Raise)
            else
              rbind (fused_degens row_cs row_fs) (fun rd =>
              rbind (fused_degens col_cs col_fs) (fun cd =>
                let bq := isect (uniques (fst rd)) (uniques (fst cd)) in
                let rds := gather 0 (snd rd) (locs_in (uniques (fst rd)) bq) in
                let cds := gather 0 (snd cd) (locs_in (uniques (fst cd)) bq) in
                rbind (reduce_charges row_cs row_fs bq (Some (firstn tr_partition new_strides))) (fun rl =>
                rbind (reduce_charges col_cs col_fs bq (Some (skipn tr_partition new_strides))) (fun cl =>
                  let maps := map (fun n =>
                    let ls := masked 0 (snd rl) (map (fun l => l =? n) (labels (fst rl))) in
                    let rs := masked 0 (snd cl) (map (fun l => l =? n) (labels (fst cl))) in
                    flat_map (fun x => map (fun y => pos (x / width + y / width) (x mod width + y mod width)) rs) ls)
                    (seq 0 (length bq)) in
                  Ok (Blocks maps (Lab bq (seq 0 (length bq))) (combine rds cds))))))))))).
End Blocks.

(** ** Block-sparse tensors *)
Section BST.
  Context {G : chg} {K : csr}.
  Variables lim blim junk : nat.

  (** blocksparsetensor.py:35-85, 468-522: data, elementary charges and flows, grouped order *)
  Record bst := BST { bdata : list K; bcs : list (bc G); bfs : list bool; bord : list (list nat) }.

  Definition edims (t : bst) : list nat := map (fun c => bdim c) (bcs t).
  (** blocksparsetensor.py:176-181 [flat_order], 111-115 [ndim], 125-132 [shape] *)
  Definition flat_order (t : bst) : list nat := concat (bord t).
  Definition ndim (t : bst) : nat := length (bord t).
  Definition bshape (t : bst) : list nat := map (fun o => nprod (gather 0 (edims t) o)) (bord t).

  (** cumulative grouping [[0..k1), [k1..k2), ...] used by blocksparsetensor.py:553-554, 835-838 *)
  Fixpoint groups_from (s : nat) (lens : list nat) : list (list nat) :=
    match lens with [] => [] | n :: r => seq s n :: groups_from (s + n) r end.

  (** an [Index]: elementary charges and flows (index.py:21-42) *)
  Definition index := (list (bc G) * list bool)%type.
  Definition idim (i : index) : nat := nprod (map (fun c => bdim c) (fst i)).

  (** blocksparsetensor.py:575-589 [todense]; assignments of arrays of different lengths raise
      (numpy would broadcast an array of length 1) *)
  Definition todense (t : bst) : res (tensor K) :=
    if ndim t =? 0 then Ok (of_list [length (bdata t)] (bdata t))
    else
      rbind (fuse_charges (bcs t) (bfs t)) (fun c =>
        let ps := flatnonzero (map (is_q qid) (rep c)) in
        if length ps =? length (bdata t) then
          let out := scatter (repeat r0 (nprod (bshape t))) ps (bdata t) in
          Ok (reshape (transpose (of_list (edims t) out) (flat_order t)) (bshape t))
        else Raise).

  (** blocksparsetensor.py:533-573 [fromdense] *)
  Definition fromdense (ixs : list index) (a : tensor K) : res bst :=
    if leqb Nat.eq_dec (map (fun i => idim i) ixs) (shape a) then
      let order := groups_from 0 (map (fun i => length (fst i)) ixs) in
      let cs := flat_map fst ixs in
      let fs := flat_map snd ixs in
      match cs with
      | [] => Raise
      | _ =>
          rbind (reduce_charges cs fs (uniques (@identity_charges G 1)) None) (fun rl =>
            Ok (BST (gather r0 (to_list a) (snd rl)) cs fs order))
      end
    else Raise.

  (** blocksparse_utils.py:33-77 [_data_initializer], [get_flat_meta_data]; blocksparsetensor.py:591-684
      [randn], [random], [ones], [zeros]: [init n] is the array the numpy initialiser returns for size [n] *)
  Definition binit (init : nat -> list K) (ixs : list index) : res bst :=
    let cs := flat_map fst ixs in
    let fs := flat_map snd ixs in
    rbind (num_nonzero lim cs fs) (fun n =>
      Ok (BST (init n) cs fs (groups_from 0 (map (fun i => length (fst i)) ixs)))).

  (** blocksparsetensor.py:802-860 [contiguous]; [contiguous t (flat_order t)] when called without argument *)
  Definition put (acc : res (list K)) (x : list nat * list nat) (src : list K) : res (list K) :=
    rbind acc (fun data =>
      if length (fst x) =? length (snd x) then Ok (scatter data (fst x) (gather r0 src (snd x))) else Raise).
  Definition contiguous (t : bst) (perm : list nat) : res bst :=
    if leqb Nat.eq_dec perm (seq 0 (length perm)) then Ok t
    else
      let pcs := gather (Raw []) (bcs t) perm in
      let pfs := gather false (bfs t) perm in
      rbind (find_best_partition (map (fun c => bdim c) pcs)) (fun p =>
      rbind (tr_blocks lim blim junk (bcs t) (bfs t) p perm) (fun tb =>
      rbind (diag_blocks lim blim pcs pfs p) (fun sb =>
      rbind (fold_left (fun acc n =>
               let q := nth n (rep (bqs sb)) qid in
               if in_dec qdec q (rep (bqs tb)) then
                 put acc (nth n (bmaps sb) [], nth (index_of qdec q (rep (bqs tb))) (bmaps tb) []) (bdata t)
               else Raise)
               (seq 0 (length (bmaps sb))) (Ok (repeat r0 (length (bdata t))))) (fun data =>
        let inds := map (fun i => nindex i perm) (nuniq perm) in
        Ok (BST data pcs pfs (map (fun o => map (fun i => nth i inds 0) o) (bord t))))))).

  (** blocksparsetensor.py:340-367 [transpose]; [shuffle=True] is followed by [contiguous] *)
  Definition btranspose (t : bst) (order : list nat) : res bst :=
    if length order =? ndim t then
      if forallb (fun i => i <? ndim t) order then
        Ok (BST (bdata t) (bcs t) (bfs t) (gather [] (bord t) order))
      else Raise
    else Raise.

  (** blocksparsetensor.py:205-308 [reshape] *)
  Fixpoint cumprod_from (acc : nat) (l : list nat) : list nat :=
    match l with [] => [] | x :: r => (acc * x) :: cumprod_from (acc * x) r end.
  Fixpoint partitions (new_shape flat_dims : list nat) : res (list nat * list nat) :=
    match new_shape with
    | [] => Ok ([], flat_dims)
    | ns :: r =>
        match flatnonzero (map (fun x => x =? ns) (cumprod_from 1 flat_dims)) with
        | [] => Raise
        | k :: _ => rbind (partitions r (skipn (k + 1) flat_dims)) (fun pr => Ok ((k + 1) :: fst pr, snd pr))
        end
    end.
  (** 287-295: trailing dimensions of size one go to the last group ([partitions[-1] += 1]) *)
  Definition add_last (k : nat) (l : list nat) : list nat :=
    match rev l with [] => [] | x :: r => rev r ++ [x + k] end.
  Fixpoint split_lens {A} (lens : list nat) (l : list A) : list (list A) :=
    match lens with [] => [] | n :: r => firstn n l :: split_lens r (skipn n l) end.
  Definition breshape (t : bst) (new_shape : list nat) : res bst :=
    if leqb Nat.eq_dec new_shape (bshape t) then Ok t
    else if nprod new_shape =? nprod (bshape t) then
      let flat_dims := gather 0 (edims t) (flat_order t) in
      if length (bcs t) <? length new_shape then Raise
      else if existsb (fun d => d =? 0) flat_dims then Raise
      else
        rbind (partitions new_shape flat_dims) (fun pr =>
          if forallb (fun d => d =? 1) (snd pr) then
            Ok (BST (bdata t) (bcs t) (bfs t) (split_lens (add_last (length (snd pr)) (fst pr)) (flat_order t)))
          else Raise)
    else Raise.

  (** blocksparsetensor.py:887-922 [outerproduct] *)
  Definition outerproduct (t1 t2 : bst) : res bst :=
    let cs := bcs t1 ++ bcs t2 in
    let fs := bfs t1 ++ bfs t2 in
    let order2 := map (map (fun i => i + length (bcs t1))) (bord t2) in
    rbind (num_nonzero lim cs fs) (fun n =>
    rbind (if (0 <? length (bdata t1)) && (0 <? length (bdata t2)) && (0 <? n) then
             rbind (diag_blocks lim blim cs fs (length (bcs t1))) (fun b =>
               if in_dec qdec qid (rep (bqs b)) then
                 let m := nth (index_of qdec qid (rep (bqs b))) (bmaps b) [] in
                 let vals := flat_map (fun x => map (fun y => x *! y) (bdata t2)) (bdata t1) in
                 if length m =? length vals then Ok (scatter (repeat r0 n) m vals) else Raise
               else Raise)
           else Ok (repeat r0 n)) (fun data =>
      Ok (BST data cs fs (bord t1 ++ order2)))).

  (** [np.matmul] of two matrices stored row major, (n, k) and (k, m) *)
  Definition matmul (n k m : nat) (a b : list K) : list K :=
    flat_map (fun i => map (fun j => nsum k (fun l => nth (i * k + l) a r0 *! nth (l * m + j) b r0)) (seq 0 m)) (seq 0 n).

  (** blocksparsetensor.py:925-1108 [tensordot] for two lists of nonnegative axes *)
  Definition btensordot (t1 t2 : bst) (axes1 axes2 : list nat) : res bst :=
    if negb (length axes1 =? length axes2) then Raise
    else if (ndim t1 <? length axes1) || (ndim t2 <? length axes2) then Raise
    else if length axes1 =? 0 then outerproduct t1 t2
    else if negb (forallb (fun i => i <? ndim t1) axes1 && forallb (fun i => i <? ndim t2) axes2) then Raise
    else
      let con1 := concat (gather [] (bord t1) axes1) in
      let con2 := concat (gather [] (bord t2) axes2) in
      let cf1 := gather false (bfs t1) con1 in
      let cf2 := gather false (bfs t2) con2 in
      let cc1 := gather (Raw []) (bcs t1) con1 in
      let cc2 := gather (Raw []) (bcs t2) con2 in
      if negb (length cc1 =? length cc2) then Raise
      else if negb (leqb Bool.bool_dec cf1 (map negb cf2)) then Raise
      else if negb (forallb (fun cc => charge_equal (fst cc) (snd cc)) (combine cc1 cc2)) then Raise
      else if (length axes1 =? ndim t1) && (length axes2 =? ndim t2) then
        rbind (btranspose t1 axes1) (fun s1 => rbind (contiguous s1 (flat_order s1)) (fun u1 =>
        rbind (btranspose t2 axes2) (fun s2 => rbind (contiguous s2 (flat_order s2)) (fun u2 =>
          if length (bdata u1) =? length (bdata u2) then
            Ok (BST [lsum (combine (bdata u1) (bdata u2)) (fun xy => fst xy *! snd xy)] [] [] [])
          else Raise))))
      else
        let free1 := free_axes (ndim t1) axes1 in
        let free2 := free_axes (ndim t2) axes2 in
        let fo1 := gather [] (bord t1) free1 in
        let fo2 := gather [] (bord t2) free2 in
        let flat1 := concat fo1 ++ con1 in
        let flat2 := con2 ++ concat fo2 in
        let lcs := gather (Raw []) (bcs t1) (concat fo1) in
        let lfs := gather false (bfs t1) (concat fo1) in
        let rcs := gather (Raw []) (bcs t2) (concat fo2) in
        let rfs := gather false (bfs t2) (concat fo2) in
        let order := groups_from 0 (map (@length nat) fo1) ++ groups_from (length lcs) (map (@length nat) fo2) in
        rbind (tr_blocks lim blim junk (bcs t1) (bfs t1) (length lcs) flat1) (fun b1 =>
        rbind (tr_blocks lim blim junk (bcs t2) (bfs t2) (length cc2) flat2) (fun b2 =>
          let common := isect (uniques (bqs b1)) (uniques (bqs b2)) in
          let l1 := locs_in (uniques (bqs b1)) common in
          let l2 := locs_in (uniques (bqs b2)) common in
          let cs := lcs ++ rcs in
          let fs := lfs ++ rfs in
          rbind (tr_blocks lim blim junk cs fs (length lcs) (seq 0 (length cs))) (fun b =>
            let n := list_sum (map (@length nat) (bmaps b)) in
            let lf := locs_in (uniques (bqs b)) (isect (uniques (bqs b)) common) in
            rbind (fold_left (fun acc i =>
                rbind acc (fun data =>
                  let s1 := nth (nth i l1 0) (bdims b1) (0, 0) in
                  let s2 := nth (nth i l2 0) (bdims b2) (0, 0) in
                  let m := nth (nth i lf 0) (bmaps b) [] in
                  let vals := matmul (fst s1) (snd s1) (snd s2)
                                (gather r0 (bdata t1) (nth (nth i l1 0) (bmaps b1) []))
                                (gather r0 (bdata t2) (nth (nth i l2 0) (bmaps b2) [])) in
                  if (i <? length lf) && (snd s1 =? fst s2) && (length m =? length vals)
                  then Ok (scatter data m vals) else Raise))
                (seq 0 (length common)) (Ok (repeat r0 n))) (fun data =>
              Ok (BST data cs fs order))))).

  (** blocksparsetensor.py:686-706 [_sub_add_protection], index.py:48-62 [Index.__eq__] *)
  Definition index_eq (i j : index) : bool :=
    (length (fst i) =? length (fst j)) &&
    forallb (fun cd => leqb qdec (uniques (fst cd)) (uniques (snd cd)) &&
                       leqb Nat.eq_dec (labels (fst cd)) (labels (snd cd))) (combine (fst i) (fst j)) &&
    leqb Bool.bool_dec (snd i) (snd j).
  Definition sparse_shape (t : bst) : list index :=
    map (fun o => (gather (Raw []) (bcs t) o, gather false (bfs t) o)) (bord t).
  Definition protection (t u : bst) : bool :=
    leqb Nat.eq_dec (bshape t) (bshape u) && (length (bcs t) =? length (bcs u)) &&
    forallb (fun ij => index_eq (fst ij) (snd ij)) (combine (sparse_shape t) (sparse_shape u)).
  (** blocksparsetensor.py:708-726 [_align_storage_layout]: the operands after the call *)
  Definition align (t u : bst) : res (bst * bst) :=
    let ft := flat_order t in
    let fu := flat_order u in
    let ot := leqb Nat.eq_dec ft (seq 0 (length ft)) in
    let ou := leqb Nat.eq_dec fu (seq 0 (length fu)) in
    if ot && negb ou then
      rbind (contiguous u (scatter (repeat 0 (length fu)) ft fu)) (fun u' => Ok (t, u'))
    else if (negb ot && ou) || (negb ot && negb ou) then
      rbind (contiguous t (scatter (repeat 0 (length ft)) fu ft)) (fun t' => Ok (t', u))
    else Ok (t, u).
  (** blocksparsetensor.py:728-747 [__sub__], [__add__] with the scalar operation [op]; returns the
      operands as they are afterwards, and the result *)
  Definition bzip (op : K -> K -> K) (t u : bst) : res (bst * bst * bst) :=
    if protection t u then
      rbind (align t u) (fun tu =>
        let '(t', u') := tu in
        if length (bdata t') =? length (bdata u') then
          Ok (t', u', BST (map (fun xy => op (fst xy) (snd xy)) (combine (bdata t') (bdata u'))) (bcs t') (bfs t') (bord t'))
        else Raise)
    else Raise.
  (** blocksparsetensor.py:749-800 scalar operations: [f] is applied to all stored entries *)
  Definition bmap (f : K -> K) (t : bst) : bst := BST (map f (bdata t)) (bcs t) (bfs t) (bord t).
  (** blocksparsetensor.py:869-880 [conj] *)
  Definition bconj (f : K -> K) (t : bst) : bst := BST (map f (bdata t)) (bcs t) (map negb (bfs t)) (bord t).
End BST.
Arguments bst : clear implicits.
