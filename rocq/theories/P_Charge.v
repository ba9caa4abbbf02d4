(** * Properties C24 and C25: charges *)
From Coq Require Import ZArith Sorting.Sorted.
From Verif Require Import Prelude Res Charge ChargeFacts ChargeInst BlockSpec BlockFacts Tensor.
Set Implicit Arguments.
Unset Strict Implicit.

(** C24: rows of U1, Z2 and ZN charges (int16) form an abelian group; dual is a homomorphism *)
Theorem C24_group ss : forallb ok_sym ss = true -> forall a b c,
  ok_row ss a = true -> ok_row ss b = true -> ok_row ss c = true ->
  ok_row ss (fuse_row ss a b) = true /\ ok_row ss (dual_row ss a) = true /\ ok_row ss (id_row ss) = true /\
  fuse_row ss a (fuse_row ss b c) = fuse_row ss (fuse_row ss a b) c /\
  fuse_row ss a b = fuse_row ss b a /\
  fuse_row ss (id_row ss) a = a /\
  fuse_row ss (dual_row ss a) a = id_row ss /\
  dual_row ss (fuse_row ss a b) = fuse_row ss (dual_row ss a) (dual_row ss b).
Proof. exact (@group_laws ss). Qed.
Print Assumptions C24_group.

(** the values: U1 adds integers unless the sum leaves int16, Z2 and ZN add modulo 2 and n *)
Theorem C24_values :
  (forall a b, ok1 U1 (a + b) = true -> fuse1 U1 a b = (a + b)%Z) /\
  (forall a, ok1 U1 (- a) = true -> dual1 U1 a = (- a)%Z) /\
  (forall a b, ok1 Z2 a = true -> ok1 Z2 b = true -> fuse1 Z2 a b = ((a + b) mod 2)%Z) /\
  (forall n a b, ok_sym (ZN n) = true -> ok1 (ZN n) a = true -> ok1 (ZN n) b = true -> fuse1 (ZN n) a b = ((a + b) mod n)%Z) /\
  (forall n a, ok_sym (ZN n) = true -> ok1 (ZN n) a = true -> dual1 (ZN n) a = ((- a) mod n)%Z).
Proof. exact charge_values. Qed.
Print Assumptions C24_values.

Example C24_example :
  let ss := [U1; Z2; ZN 5] in
  forallb ok_sym ss = true /\ ok_row ss [3; 1; 4]%Z = true /\ ok_row ss [-5; 1; 3]%Z = true /\
  fuse_row ss [3; 1; 4]%Z [-5; 1; 3]%Z = [-2; 0; 2]%Z /\ dual_row ss [3; 1; 4]%Z = [-3; 1; 1]%Z /\
  fuse_row [U1] [32767]%Z [1]%Z = [-32768]%Z.
Proof. vm_compute. auto 10. Qed.

(** the flow sign distributes over the fusion of any number of legs: fusing charge objects lists the
    total charges of all index tuples, row major, and reversing all flows inverts all of them *)
Theorem C24_fuse_charges (G : chg) (cs : list (bc G)) fs :
  (forall c, In c cs -> bc_ok c) -> length cs = length fs -> cs <> [] ->
  exists c c', fuse_charges cs fs = Ok c /\ fuse_charges cs (map negb fs) = Ok c' /\ bc_ok c /\
    rep c = map (charge_of (legs cs fs)) (idxs (map (fun c => length (rep c)) cs)) /\
    rep c' = map qinv (rep c).
Proof. exact (@fuse_charges_flows G cs fs). Qed.
Print Assumptions C24_fuse_charges.

Example C24_fuse_example :
  let cs : list (bc Z_chg) := [Raw [1; -2]%Z; Lab [5; 3]%Z [1; 0; 1]] in
  (forall c, In c cs -> bc_ok c) /\
  rbind (@fuse_charges Z_chg cs [false; true]) (fun c => Ok (rep c)) = Ok [-2; -4; -2; -5; -7; -5]%Z.
Proof.
  split; [|vm_compute; reflexivity].
  intros c [<-|[<-|[]]]; [exact I|]. split; [repeat constructor; cbn; intuition discriminate|].
  intros i. cbn. split; [intros [<-|[<-|[<-|[]]]]; lia | destruct i as [|[|i]]; auto; lia].
Qed.

(** C25: operations on charge objects act on the represented list of charges, whatever the
    representation *)
Theorem C25_unique (G : chg) (c : bc G) : bc_ok c ->
  let '(u, inv, cnt) := bunique c in
  NoDup (rep u) /\ (forall x, In x (rep u) <-> In x (rep c)) /\
  gather qid (rep u) inv = rep c /\ cnt = map (count_occ qdec (rep c)) (rep u).
Proof. exact (@bunique_rep G c). Qed.
Print Assumptions C25_unique.

Theorem C25_unique_index (G : chg) (c : bc G) : bc_ok c ->
  let '(u, idx, inv, cnt) := bunique_index c in
  bc_ok u /\ NoDup (rep u) /\ (forall x, In x (rep u) <-> In x (rep c)) /\
  idx = map (fun x => index_of qdec x (rep c)) (rep u) /\
  gather qid (rep u) inv = rep c /\ cnt = map (count_occ qdec (rep c)) (rep u).
Proof. exact (@bunique_index_spec G c). Qed.
Print Assumptions C25_unique_index.

Theorem C25_intersect (G : chg) (c d : bc G) :
  let '(o, i1, i2) := bintersect c d in
  bc_ok o /\ NoDup (rep o) /\ StronglySorted (fun x y : G => qleb x y = true) (rep o) /\
  (forall x, In x (rep o) <-> In x (rep c) /\ In x (rep d)) /\
  i1 = map (fun x => index_of qdec x (rep c)) (rep o) /\
  i2 = map (fun x => index_of qdec x (rep d)) (rep o) /\
  gather qid (rep c) i1 = rep o /\ gather qid (rep d) i2 = rep o.
Proof. exact (@bintersect_spec G c d). Qed.
Print Assumptions C25_intersect.

Theorem C25_reduce (G : chg) (c : bc G) targets stride : bc_ok c ->
  exists d, breduce c targets stride =
      Ok (d, map (fun j => stride * j) (filter (fun j => qmem (nth j (rep c) qid) targets) (seq 0 (bdim c)))) /\
    bc_ok d /\ rep d = filter (fun x => qmem x targets) (rep c) /\ (forall x, In x (uniques d) <-> In x (rep c) /\ In x targets).
Proof. exact (@breduce_rep G c targets stride). Qed.
Print Assumptions C25_reduce.

Theorem C25_getitem (G : chg) (c : bc G) ns : bc_ok c ->
  (forall n, In n ns -> n < length (rep c)) ->
  exists d, bgetitem c ns = Ok d /\ bc_ok d /\ rep d = gather qid (rep c) ns.
Proof. exact (@bgetitem_rep G c ns). Qed.
Print Assumptions C25_getitem.

Theorem C25_fuse_dual (G : chg) (c d : bc G) f : bc_ok c ->
  rep (badd c d) = flat_map (fun x => map (fun y => qop x y) (rep d)) (rep c) /\
  rep (dual c f) = map (fun x => if f then qinv x else x) (rep c) /\ bc_ok (dual c f) /\ bc_ok (badd c d).
Proof. exact (@fuse_dual_rep G c d f). Qed.
Print Assumptions C25_fuse_dual.

(** equality: sound in general; complete for the sorted representations produced by the library,
    but see charge_equal_refuted in R_Charge.v *)
Theorem C25_equal (G : chg) (c d : bc G) :
  (charge_equal c d = true -> rep c = rep d) /\
  (bc_ok c -> bc_ok d -> uniques c = uniq (rep c) -> uniques d = uniq (rep d) -> rep c = rep d -> charge_equal c d = true).
Proof. exact (@charge_equal_rep G c d). Qed.
Print Assumptions C25_equal.

Example C25_example :
  let c : bc Z_chg := Lab [7; -1; 2]%Z [2; 0; 0; 1] in
  let d : bc Z_chg := Raw [7; 7; 5; 2]%Z in
  bc_ok c /\ rep c = [2; 7; 7; -1]%Z /\
  (let '(u, inv, cnt) := bunique c in (rep u, inv, cnt)) = ([7; -1; 2]%Z, [2; 0; 0; 1], [2; 1; 1]) /\
  (let '(u, idx, inv, cnt) := bunique_index c in (rep u, idx, inv, cnt)) = ([7; -1; 2]%Z, [1; 3; 0], [2; 0; 0; 1], [2; 1; 1]) /\
  (let '(o, i1, i2) := bintersect c d in (rep o, i1, i2)) = ([2; 7]%Z, [0; 1], [3; 0]) /\
  rbind (breduce c [7; 2]%Z 3) (fun x => Ok (rep (fst x), snd x)) = Ok ([2; 7; 7]%Z, [0; 3; 6]) /\
  rbind (bgetitem c [3; 1]) (fun x => Ok (rep x)) = Ok [-1; 7]%Z /\
  charge_equal d (Raw [7; 7; 5; 2]%Z) = true /\ charge_equal d (Lab [2; 5; 7]%Z [2; 2; 1; 0]) = true /\
  charge_equal d c = false.
Proof.
  split; [|vm_compute; auto 20]. split; [repeat constructor; cbn; intuition discriminate|].
  intros i. cbn. split; [intros [<-|[<-|[<-|[<-|[]]]]]; lia | destruct i as [|[|[|i]]]; auto; lia].
Qed.
