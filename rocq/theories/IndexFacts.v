(** * IndexFacts: fusing, flipping and comparing indices *)
From Coq Require Import ZArith Lia.
From Verif Require Import Prelude ListFacts Res Charge ChargeFacts ChargeInst Tensor BlockSpec BlockFacts BlockSparse IndexOps IndexSpec.
Set Implicit Arguments.
Unset Strict Implicit.

Section IndexFacts.
  Context {G : chg}.
  Notation index := (@index G).

  Lemma charges_of_raw (l : list G) : charges_of [(l, false)] = l.
  Proof. exact (@charges_of_single G (Raw l) false I). Qed.
  Lemma outer_charges (ls : list (list G)) : outer ls = charges_of (map (fun l => (l, false)) ls).
  Proof.
    unfold outer, charges_of. f_equal. f_equal. unfold ldims. rewrite map_map. apply map_ext. reflexivity.
  Qed.
  Lemma outer_cons (l : list G) ls : outer (l :: ls) = fuse2 l (outer ls).
  Proof.
    rewrite !outer_charges. cbn [map]. change ((l, false) :: map (fun l => (l, false)) ls) with ([(l, false)] ++ map (fun l : list G => (l, false)) ls).
    rewrite charges_of_app, charges_of_raw. reflexivity.
  Qed.

  Lemma charges_ok (i : index) : index_ok i -> exists c, index_charges i = Ok c /\ bc_ok c /\ rep c = charges_of (legs (fst i) (snd i)).
  Proof.
    intros (N & L & H). destruct (@fuse_charges_spec G (fst i) (snd i) H L N) as (c & E & B & V & _).
    exists c. split; [exact E|]. split; assumption.
  Qed.
  Lemma pair_ok (i j : index) : index_ok i -> index_ok j -> index_ok (fuse_index_pair i j) /\
    legs (fst (fuse_index_pair i j)) (snd (fuse_index_pair i j)) = legs (fst i) (snd i) ++ legs (fst j) (snd j).
  Proof.
    intros (N & L & H) (N' & L' & H'). unfold fuse_index_pair. cbn [fst snd]. split; [|apply legs_app, L]. repeat split; cbn [fst snd].
    - intros E. apply app_eq_nil in E. tauto.
    - rewrite !app_length. congruence.
    - intros c Hc. apply in_app_iff in Hc. destruct Hc; auto.
  Qed.
  Lemma fold_ok (l : list index) : forall i, index_ok i -> (forall j, In j l -> index_ok j) ->
    index_ok (fold_left fuse_index_pair l i) /\
    legs (fst (fold_left fuse_index_pair l i)) (snd (fold_left fuse_index_pair l i))
    = legs (fst i) (snd i) ++ concat (map (fun j => legs (fst j) (snd j)) l).
  Proof.
    induction l as [|j l IH]; intros i Hi H; cbn [fold_left map concat].
    - rewrite app_nil_r. split; [exact Hi|reflexivity].
    - destruct (pair_ok Hi (H j (or_introl eq_refl))) as [P1 P2].
      destruct (IH _ P1 (fun k Hk => H k (or_intror Hk))) as [F1 F2]. split; [exact F1|]. rewrite F2, P2. rewrite <- app_assoc. reflexivity.
  Qed.
  Lemma outer_concat (lss : list (list (leg G))) : outer (map (fun ls => charges_of ls) lss) = charges_of (concat lss).
  Proof.
    induction lss as [|ls lss IH]; [reflexivity|]. cbn [map concat]. rewrite outer_cons, charges_of_app, IH. reflexivity.
  Qed.
  Lemma dim_fold (l : list index) : forall i, idim (fold_left fuse_index_pair l i) = idim i * nprod (map (fun j => idim j) l).
  Proof.
    induction l as [|j l IH]; intros i; cbn [fold_left map]; [unfold nprod; cbn; lia|]. rewrite IH. unfold idim, fuse_index_pair. cbn [fst].
    rewrite map_app, nprod_app. match goal with |- _ = _ * nprod (?x :: ?y) => change (nprod (x :: y)) with (x * nprod y) end. ring.
  Qed.

  Lemma fuse_all (l : list index) : l <> [] -> (forall i, In i l -> index_ok i) ->
    exists f c cs, fuse_indices l = Ok f /\ index_ok f /\ idim f = nprod (map (fun i => idim i) l) /\
      index_charges f = Ok c /\ Forall2 (fun i d => index_charges i = Ok d) l cs /\ rep c = outer (map (fun d => rep d) cs).
  Proof.
    intros Ne H. destruct l as [|i r]; [congruence|].
    destruct (@fold_ok r i (H i (or_introl eq_refl)) (fun j Hj => H j (or_intror Hj))) as [F1 F2].
    destruct (charges_ok F1) as (c & Ec & _ & Vc).
    assert (exists cs, Forall2 (fun i d => index_charges i = Ok d) (i :: r) cs /\ map (fun d => rep d) cs = map (fun j => charges_of (legs (fst j) (snd j))) (i :: r)) as (cs & F & V).
    { clear - H. induction (i :: r) as [|j q IH]; [exists []; split; [constructor|reflexivity]|].
      destruct IH as (cs & F & V); [intros; apply H; right; assumption|]. destruct (charges_ok (H j (or_introl eq_refl))) as (d & Ed & _ & Vd).
      exists (d :: cs). split; [constructor; assumption|]. cbn [map]. rewrite Vd, V. reflexivity. }
    exists (fold_left fuse_index_pair r i), c, cs. split; [reflexivity|]. split; [exact F1|]. split; [rewrite dim_fold; reflexivity|].
    split; [exact Ec|]. split; [exact F|]. rewrite Vc, F2, V. rewrite <- (map_map (fun j => legs (fst j) (snd j)) (fun ls => charges_of ls)).
    rewrite outer_concat. reflexivity.
  Qed.

  Lemma flip_ok (i : index) : index_ok i -> index_ok (flip_flow i) /\ idim (flip_flow i) = idim i /\ flip_flow (flip_flow i) = i /\
    exists c c', index_charges i = Ok c /\ index_charges (flip_flow i) = Ok c' /\ rep c' = map qinv (rep c).
  Proof.
    intros (N & L & H). split; [|split; [reflexivity|split]].
    - repeat split; cbn [fst snd flip_flow]; [exact N|rewrite map_length; exact L|exact H].
    - unfold flip_flow. cbn [fst snd]. rewrite map_map. destruct i as [cs fs]. cbn [fst snd]. f_equal.
      rewrite <- (map_id fs) at 2. apply map_ext. apply Bool.negb_involutive.
    - destruct (@fuse_charges_flows G (fst i) (snd i) H L N) as (c & c' & E1 & E2 & _ & _ & V). exists c, c'. split; [exact E1|]. split; [exact E2|exact V].
  Qed.

  (** ** equality *)
  Lemma leqb_spec A (dec : forall x y : A, {x = y} + {x <> y}) a b : leqb dec a b = true <-> a = b.
  Proof. unfold leqb. destruct (list_eq_dec dec a b); split; congruence. Qed.
  Lemma rep_uniques (c : bc G) : bc_ok c -> rep c = gather qid (uniques c) (labels c).
  Proof.
    intros H. pose proof (bunique_spec H) as S. pose proof (labels_index H) as L. destruct (bunique c) as [[u inv] cnt].
    destruct S as (_ & _ & E & _ & _ & E2 & V & _). rewrite <- V, E, E2, L. reflexivity.
  Qed.
  Lemma index_eq_parts (i j : index) : index_eq i j = true <->
    Forall2 (fun c d => uniques c = uniques d /\ labels c = labels d) (fst i) (fst j) /\ snd i = snd j.
  Proof.
    unfold index_eq. rewrite !Bool.andb_true_iff, Nat.eqb_eq, leqb_spec. destruct i as [cs fs], j as [ds gs]. cbn [fst snd].
    assert (length cs = length ds /\ forallb (fun cd => leqb qdec (uniques (fst cd)) (uniques (snd cd)) && leqb Nat.eq_dec (labels (fst cd)) (labels (snd cd))) (combine cs ds) = true
      <-> Forall2 (fun c d => uniques c = uniques d /\ labels c = labels d) cs ds) as E.
    { revert ds. induction cs as [|c cs IH]; intros [|d ds]; cbn [length combine forallb fst snd].
      - split; [constructor|split; reflexivity].
      - split; [intros [H _]; discriminate|intros H; inversion H].
      - split; [intros [H _]; discriminate|intros H; inversion H].
      - rewrite !Bool.andb_true_iff, !leqb_spec. split.
        + intros (L & (U & V) & F). constructor; [split; assumption|]. apply IH. split; [lia|exact F].
        + intros H. inversion H as [|? ? ? ? [U V] F]; subst. apply IH in F as [L F]. repeat split; auto. }
    rewrite E. reflexivity.
  Qed.
  Lemma index_eq_sound (i j : index) : index_ok i -> index_ok j -> index_eq i j = true ->
    map (fun c => rep c) (fst i) = map (fun c => rep c) (fst j) /\ snd i = snd j.
  Proof.
    intros (_ & _ & Hi) (_ & _ & Hj) E. apply index_eq_parts in E as [F E]. split; [|exact E]. clear E.
    induction F as [|c d cs ds [U V] F IH]; [reflexivity|]. cbn [map]. f_equal.
    - rewrite (rep_uniques (Hi c (or_introl eq_refl))), (rep_uniques (Hj d (or_introl eq_refl))), U, V. reflexivity.
    - apply IH; intros; [apply Hi|apply Hj]; right; assumption.
  Qed.
  Lemma index_eq_complete (i j : index) : index_ok i -> index_ok j ->
    (forall c, In c (fst i) \/ In c (fst j) -> sorted_rep c) ->
    map (fun c => rep c) (fst i) = map (fun c => rep c) (fst j) -> snd i = snd j -> index_eq i j = true.
  Proof.
    intros (_ & _ & Hi) (_ & _ & Hj) S E F. apply index_eq_parts. split; [|exact F]. clear F.
    destruct i as [cs fs], j as [ds gs]. cbn [fst snd] in *. revert ds E Hj S. induction cs as [|c cs IH]; intros [|d ds] E Hj S; try discriminate; [constructor|].
    cbn [map] in E. injection E as E1 E2. constructor.
    - assert (uniques c = uniques d) as U by (rewrite (S c), (S d), E1 by (cbn; auto); reflexivity). split; [exact U|].
      rewrite (labels_index (Hi c (or_introl eq_refl))), (labels_index (Hj d (or_introl eq_refl))), U, E1. reflexivity.
    - apply IH; [intros; apply Hi; right; assumption|exact E2|intros; apply Hj; right; assumption|]. intros k [K|K]; apply S; cbn; auto.
  Qed.
End IndexFacts.

(** ** products of symmetries *)
Lemma fuse_row_app ss1 : forall ss2 a b c d, length a = length ss1 -> length c = length ss1 ->
  fuse_row (ss1 ++ ss2) (a ++ b) (c ++ d) = fuse_row ss1 a c ++ fuse_row ss2 b d.
Proof.
  induction ss1 as [|s ss1 IH]; intros ss2 [|x a] b [|y c] d La Lc; try discriminate; [reflexivity|]. cbn in *. rewrite IH by lia. reflexivity.
Qed.
Lemma dual_row_app ss1 : forall ss2 a b, length a = length ss1 -> dual_row (ss1 ++ ss2) (a ++ b) = dual_row ss1 a ++ dual_row ss2 b.
Proof.
  induction ss1 as [|s ss1 IH]; intros ss2 [|x a] b La; try discriminate; [reflexivity|]. cbn in *. rewrite IH by lia. reflexivity.
Qed.
Lemma matmul_add (a b c d ab cd : tch) : rows_ok (ctypes a) (crows a) -> rows_ok (ctypes a) (crows c) ->
  tmatmul a b = Ok ab -> tmatmul c d = Ok cd -> tmatmul (tadd a c) (tadd b d) = Ok (tadd ab cd).
Proof.
  intros Ha Hc E1 E2. unfold tmatmul in *. destruct (length (crows a) =? length (crows b)) eqn:L1; [|discriminate].
  destruct (length (crows c) =? length (crows d)) eqn:L2; [|discriminate]. apply Nat.eqb_eq in L1, L2. injection E1 as <-. injection E2 as <-.
  unfold tadd. cbn [ctypes crows].
  assert (forall s1 s2 x y (l m : list (list Z)), length x = length s1 -> rows_ok s1 l -> length l = length m ->
    map (fun xy => fst xy ++ snd xy) (combine (map (fuse_row s1 x) l) (map (fuse_row s2 y) m))
    = map (fuse_row (s1 ++ s2) (x ++ y)) (map (fun xy => fst xy ++ snd xy) (combine l m))) as Inner.
  { intros s1 s2 x y l. induction l as [|u l IH]; intros [|v m] Lx Hl Lm; try discriminate; [reflexivity|]. cbn [map combine fst snd].
    rewrite fuse_row_app by (auto; apply Hl; left; reflexivity). f_equal. apply IH; [exact Lx|intros z Hz; apply Hl; right; exact Hz|cbn in Lm; lia]. }
  assert (forall la lb : list (list Z), rows_ok (ctypes a) la -> length la = length lb ->
    length (flat_map (fun x => map (fuse_row (ctypes a) x) (crows c)) la) = length (flat_map (fun x => map (fuse_row (ctypes b) x) (crows d)) lb) /\
    map (fun xy => fst xy ++ snd xy) (combine (flat_map (fun x => map (fuse_row (ctypes a) x) (crows c)) la) (flat_map (fun x => map (fuse_row (ctypes b) x) (crows d)) lb))
    = flat_map (fun x => map (fuse_row (ctypes a ++ ctypes b) x) (map (fun xy => fst xy ++ snd xy) (combine (crows c) (crows d)))) (map (fun xy => fst xy ++ snd xy) (combine la lb))) as Outer.
  { intros la. induction la as [|x la IH]; intros [|y lb] Hl Ll; try discriminate; [split; reflexivity|]. cbn [flat_map map combine fst snd].
    destruct (IH lb) as [I1 I2]; [intros z Hz; apply Hl; right; exact Hz|cbn in Ll; lia|]. split; [rewrite !app_length, !map_length; lia|].
    assert (forall A B (p1 p2 : list A) (q1 q2 : list B), length p1 = length q1 -> combine (p1 ++ p2) (q1 ++ q2) = combine p1 q1 ++ combine p2 q2) as CA.
    { intros A B p1. induction p1 as [|u p1 IHp]; intros p2 [|v q1] q2 L; try discriminate; [reflexivity|]. cbn. rewrite IHp by (cbn in L; lia). reflexivity. }
    rewrite CA by (rewrite !map_length; exact L2). rewrite map_app, I2. f_equal. apply Inner; [apply Hl; left; reflexivity|exact Hc|exact L2]. }
  destruct (Outer (crows a) (crows b) Ha L1) as [O1 O2]. rewrite (proj2 (Nat.eqb_eq _ _) O1), O2. reflexivity.
Qed.
Lemma matmul_dual (a b ab : tch) f : rows_ok (ctypes a) (crows a) -> tmatmul a b = Ok ab -> tmatmul (tdual a f) (tdual b f) = Ok (tdual ab f).
Proof.
  intros Ha E. destruct f; [|exact E]. unfold tmatmul, tdual in *. cbn [ctypes crows]. rewrite !map_length.
  destruct (length (crows a) =? length (crows b)); [|discriminate]. injection E as <-. cbn [ctypes crows]. do 2 f_equal.
  revert Ha. generalize (crows b). induction (crows a) as [|x l IH]; intros [|y m] H; try reflexivity. cbn [map combine fst snd].
  rewrite dual_row_app by (apply H; left; reflexivity). f_equal. apply IH. intros z Hz. apply H. right. exact Hz.
Qed.
