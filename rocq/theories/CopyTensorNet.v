(** * CopyTensorNet: the partners of a copy tensor and the tensor computed from them *)
From Verif Require Import Prelude Algebra Tensor TensorFacts Einsum EinsumFacts NetworkFacts Graph GraphBase GraphContract GraphOps GraphValue GraphOuter GraphConnect GraphQuery GraphQueryFacts CopyTensor CopyTensorSpec CopyTensorSum.
Set Implicit Arguments.
Unset Strict Implicit.
Local Open Scope csr_scope.

(** [x] is recorded in the dictionary *)
Definition pin (d : list (nid * list nat)) (x : nid * nat) : Prop := exists l, In (fst x, l) d /\ In (snd x) l.
Definition keyed (d : list (nid * list nat)) : Prop := NoDup (map fst d) /\ forall p, In p (map fst d) -> exists a, pin d (p, a).

Lemma pin_key d x : pin d x -> In (fst x) (map fst d).
Proof. intros (l & H & _). apply (in_map fst) in H. exact H. Qed.
Lemma pin_cons q l d x : pin ((q, l) :: d) x <-> (fst x = q /\ In (snd x) l) \/ pin d x.
Proof.
  unfold pin. split.
  - intros (l' & [E|H] & K); [injection E as <- <-; left; auto | right; eauto].
  - intros [[<- K]|(l' & H & K)]; [exists l; split; [left; reflexivity | exact K] | exists l'; split; [right; exact H | exact K]].
Qed.
Lemma add_partner_pin p a d x : pin (add_partner p a d) x <-> x = (p, a) \/ pin d x.
Proof.
  induction d as [|[q l] d IH]; cbn [add_partner].
  - rewrite pin_cons. destruct x as [y b]. cbn [fst snd In]. split.
    + intros [[-> [<-|[]]]|(l & [] & _)]. left. reflexivity.
    + intros [E|(l & [] & _)]. injection E as -> ->. left. auto.
  - destruct (Nat.eqb_spec q p) as [->|Hne].
    + rewrite !pin_cons. destruct x as [y b]. cbn [fst snd In]. split.
      * intros [[-> [<-|H]]|H]; [left; reflexivity | right; left; auto | right; right; exact H].
      * intros [E|[[-> H]|H]]; [injection E as -> ->; left; auto | left; auto | right; exact H].
    + rewrite !pin_cons, IH. tauto.
Qed.
Lemma add_partner_keys p a d q : In q (map fst (add_partner p a d)) <-> q = p \/ In q (map fst d).
Proof.
  induction d as [|[q' l] d IH]; cbn [add_partner map fst In]; [intuition|].
  destruct (Nat.eqb_spec q' p) as [->|Hne]; cbn [map fst In]; [|rewrite IH]; intuition.
Qed.
Lemma add_partner_nodup p a d : NoDup (map fst d) -> NoDup (map fst (add_partner p a d)).
Proof.
  induction d as [|[q l] d IH]; cbn [add_partner map fst]; intros H; [repeat constructor; intros []|].
  inversion H as [|? ? H1 H2]; subst. destruct (Nat.eqb_spec q p) as [->|Hne]; cbn [map fst]; constructor; auto.
  rewrite add_partner_keys. intros [E|E]; congruence || auto.
Qed.
Lemma add_partner_keyed p a d : keyed d -> keyed (add_partner p a d).
Proof.
  intros [H1 H2]. split; [apply add_partner_nodup, H1|]. intros q Hq. apply add_partner_keys in Hq. destruct Hq as [->|Hq].
  - exists a. apply add_partner_pin. left. reflexivity.
  - destruct (H2 q Hq) as (b & K). exists b. apply add_partner_pin. right. exact K.
Qed.
Lemma keyed_in d p l a : keyed d -> In (p, l) d -> (In a l <-> pin d (p, a)).
Proof.
  intros [H _] Hp. split; [intros Ha; exists l; auto|]. intros (l' & H' & Ha). cbn [fst snd] in *.
  assert (l' = l) as ->; [|exact Ha]. revert H Hp H'. clear. induction d as [|[q k] d IH]; intros H Hp H'; [destruct Hp|].
  inversion H as [|? ? H1 H2]; subst. destruct Hp as [E|Hp], H' as [E'|H'].
  - congruence.
  - injection E as -> ->. exfalso. apply H1. apply (in_map fst) in H'. exact H'.
  - injection E' as -> ->. exfalso. apply H1. apply (in_map fst) in Hp. exact Hp.
  - auto.
Qed.

Section Net.
  Context {R : csr}.
  Variable letters : nat.
  Notation st := (@st R).
  Notation node := (@node R).
  Implicit Types (s : st) (e : eid).
  Add Ring Rring : (rsr R).

  Lemma forget_node D s n nd : s_nodes (forget D s) n = Some nd -> s_nodes s n = Some nd /\ ~ In n D.
  Proof. cbn. destruct (mem n D) eqn:E; [discriminate|]. apply mem_nIn in E. auto. Qed.
  Lemma forget_keep D s n : ~ In n D -> s_nodes (forget D s) n = s_nodes s n.
  Proof. intros H. cbn. apply mem_nIn in H. rewrite H. reflexivity. Qed.
  Lemma forget_slot D s p e : slot (forget D s) p = Some e -> slot s p = Some e /\ ~ In (fst p) D.
  Proof. unfold slot. cbn. destruct (mem (fst p) D) eqn:E; [discriminate|]. apply mem_nIn in E. auto. Qed.
  Lemma keep_slot D s p : ~ In (fst p) D -> slot (forget D s) p = slot s p.
  Proof. intros H. unfold slot. rewrite forget_keep by exact H. reflexivity. Qed.
  Lemma forget_nil s : heq (forget [] s) s.
  Proof. repeat split. Qed.

  (** the other end *)
  Definition other (c : nid) (ed : edge) : option (nid * nat) :=
    match e_2 ed with
    | None => None
    | Some q => if (e_n1 ed =? c) && (fst q =? c) then None else if e_n1 ed =? c then Some q else Some (e_n1 ed, e_a1 ed)
    end.
  Lemma partners_from_inv c es d s s' ps : partners_from c es d s = (s', Some ps) ->
    s' = s /\ (keyed d -> keyed ps) /\
    (forall e, In e es -> exists ed q, s_edges s e = Some ed /\ e_2 ed = Some q) /\
    (forall x, pin ps x <-> pin d x \/ exists e ed, In e es /\ s_edges s e = Some ed /\ other c ed = Some x).
  Proof.
    revert d. induction es as [|e es IH]; intros d H.
    - injection H as <- <-. split; [reflexivity|]. split; [auto|]. split; [intros e []|]. intros x. split; [auto|]. intros [K|(e & ed & [] & _)]. exact K.
    - cbn [partners_from] in H. apply bind_inv in H. destruct H as (ed & s1 & H1 & H). apply get_edge_inv in H1. destruct H1 as (-> & He & Hdis).
      destruct (e_2 ed) as [[n2 a2]|] eqn:E2; [|discriminate].
      assert (forall d', partners_from c es d' s = (s', Some ps) -> (keyed d -> keyed d') ->
                (forall x, pin d' x <-> pin d x \/ other c ed = Some x) ->
                s' = s /\ (keyed d -> keyed ps) /\
                (forall e', In e' (e :: es) -> exists ed q, s_edges s e' = Some ed /\ e_2 ed = Some q) /\
                (forall x, pin ps x <-> pin d x \/ exists e' ed, In e' (e :: es) /\ s_edges s e' = Some ed /\ other c ed = Some x)) as K.
      { intros d' Hd' Hk Hx. destruct (IH d' Hd') as (-> & K1 & K2 & K3). split; [reflexivity|]. split; [auto|]. split.
        - intros e' [<-|He']; [eauto | apply K2, He'].
        - intros x. rewrite K3, Hx. split.
          + intros [[P|P]|(e' & ed' & A & B & C)]; [left; exact P | right; exists e, ed; split; [left; reflexivity | auto] | right; exists e', ed'; split; [right; exact A | auto]].
          + intros [P|(e' & ed' & [<-|A] & B & C)]; [auto | | right; eauto]. assert (ed' = ed) as -> by congruence. auto. }
      unfold other in K. rewrite E2 in K. cbn [fst] in K.
      destruct ((e_n1 ed =? c) && (n2 =? c)).
      + apply (K d H); [auto|]. intros x. split; [auto|]. intros [P|P]; [exact P | discriminate].
      + destruct (e_n1 ed =? c).
        * apply (K _ H); [apply add_partner_keyed|]. intros x. rewrite add_partner_pin. split; [intros [->|P]; auto | intros [P|P]; [auto | left; congruence]].
        * apply bind_inv in H. destruct H as ([] & s1 & H1 & H). apply guard_inv in H1. destruct H1 as (_ & ->).
          apply (K _ H); [apply add_partner_keyed|]. intros x. rewrite add_partner_pin. split; [intros [->|P]; auto | intros [P|P]; [auto | left; congruence]].
  Qed.

  (** [ps] are the partners of [c] *)
  Record partners s (c : nid) (ps : list (nid * list nat)) : Prop := {
    pt_nodup : NoDup (map fst ps);
    pt_self : ~ In c (map fst ps);
    pt_node : forall p, In p (map fst ps) -> exists nd, s_nodes s p = Some nd;
    pt_axes : forall p l a, In (p, l) ps -> (In a l <-> exists e, on s c e /\ slot s (p, a) = Some e);
    pt_used : forall p, In p (map fst ps) -> exists a e, on s c e /\ slot s (p, a) = Some e;
    pt_all : forall e x, on s c e -> slot s x = Some e -> fst x = c \/ In (fst x) (map fst ps);
    pt_joined : forall e, on s c e -> exists ed q, s_edges s e = Some ed /\ e_2 ed = Some q
  }.

  Lemma other_ends c ed i x : In (c, i) (ends ed) -> NoDup (ends ed) -> (other c ed = Some x <-> In x (ends ed) /\ fst x <> c).
  Proof.
    unfold other, ends. intros Hc Hn. destruct (e_2 ed) as [[n2 a2]|].
    - cbn [fst]. destruct (Nat.eqb_spec (e_n1 ed) c) as [E1|E1], (Nat.eqb_spec n2 c) as [E2|E2]; cbn [andb].
      + split; [discriminate|]. intros ([<-|[<-|[]]] & K); cbn [fst] in K; congruence.
      + split; [intros E; injection E as <-; split; [right; left; reflexivity | exact E2]|]. intros ([<-|[<-|[]]] & K); cbn [fst] in K; congruence.
      + split; [intros E; injection E as <-; split; [left; reflexivity | exact E1]|]. intros ([<-|[<-|[]]] & K); cbn [fst] in K; congruence.
      + exfalso. destruct Hc as [E|[E|[]]]; congruence.
    - split; [discriminate|]. intros ([<-|[]] & K). destruct Hc as [E|[]]. cbn [fst] in K. congruence.
  Qed.

  Lemma get_partners_inv D c s s' ps nd : wf (forget D s) -> s_nodes (forget D s) c = Some nd -> get_partners c s = (s', Some ps) ->
    s' = s /\ partners (forget D s) c ps.
  Proof.
    intros W Hc H. unfold get_partners in H. apply bind_inv in H. destruct H as (nd' & s1 & H1 & H). apply get_node_inv in H1. destruct H1 as (-> & Hc').
    pose proof (forget_node Hc) as [Hc2 HcD]. assert (nd' = nd) as -> by congruence.
    destruct (partners_from_inv H) as (-> & K1 & K2 & K3). split; [reflexivity|].
    assert (keyed ps) as HK. { apply K1. split; [constructor | intros p []]. }
    assert (forall x, pin ps x <-> exists e, on (forget D s) c e /\ slot (forget D s) x = Some e /\ fst x <> c) as PX.
    { intros x. rewrite K3. split.
      - intros [(l & [] & _)|(e & ed & A & B & C)]. apply In_nth_error in A. destruct A as (i & A).
        assert (slot (forget D s) (c, i) = Some e) as Si by (unfold slot; cbn [fst]; rewrite Hc; exact A).
        exists e. split; [exists i; exact Si|].
        destruct (wf_slot W Si) as (ed' & B' & _ & C1 & C2 & C3). assert (ed' = ed) as -> by (cbn in B'; congruence).
        apply (other_ends (i := i) x C1 C2) in C. destruct C as [C C']. split; [|exact C']. apply (C3 (fun f => f) x C).
      - intros (e & (i & Si) & Sx & Nx). right.
        destruct (wf_slot W Si) as (ed & B & _ & C1 & C2 & C3). exists e, ed.
        split; [unfold slot in Si; cbn [fst snd] in Si; rewrite Hc in Si; apply nth_error_In in Si; exact Si|]. split; [exact B|].
        apply (other_ends (i := i) x C1 C2). split; [|exact Nx]. destruct (wf_slot W Sx) as (ed' & B' & _ & D1 & _). assert (ed' = ed) as -> by congruence. exact D1. }
    constructor.
    - apply HK.
    - intros Hin. destruct (proj2 HK _ Hin) as (a & P). apply PX in P. destruct P as (e & _ & _ & N). apply N. reflexivity.
    - intros p Hp. destruct (proj2 HK _ Hp) as (a & P). apply PX in P. destruct P as (e & _ & Sx & _). unfold slot in Sx. cbn [fst snd] in Sx.
      destruct (s_nodes (forget D s) p) as [x|]; [eauto | discriminate].
    - intros p l a Hp. rewrite (keyed_in a HK Hp), PX. split; [intros (e & A & B & _); eauto|]. intros (e & A & B). exists e. split; [exact A|]. split; [exact B|].
      cbn [fst]. intros ->. assert (In c (map fst ps)) as Q by (apply (in_map fst) in Hp; exact Hp). destruct (proj2 HK _ Q) as (b & P). apply PX in P. destruct P as (e' & _ & _ & N). apply N. reflexivity.
    - intros p Hp. destruct (proj2 HK _ Hp) as (a & P). apply PX in P. destruct P as (e & A & B & _). eauto.
    - intros e x A B. destruct (Nat.eq_dec (fst x) c) as [E|E]; [left; exact E|]. right. apply (pin_key (x := x)). apply PX. eauto.
    - intros e (i & Si). apply K2. unfold slot in Si. cbn [fst snd] in Si. rewrite Hc in Si. apply nth_error_In in Si. exact Si.
  Qed.

  (** ** the tensor *)
  Lemma mem_axes s c ps p l nd nc j : wf s -> partners s c ps -> s_nodes s c = Some nc -> In (p, l) ps -> s_nodes s p = Some nd -> j < length (n_edges nd) ->
    mem j l = mem (nth j (n_edges nd) 0) (n_edges nc).
  Proof.
    intros W P Hc Hp Hn Hj. apply Bool.eq_true_iff_eq. rewrite !mem_In, (pt_axes P j Hp).
    assert (slot s (p, j) = Some (nth j (n_edges nd) 0)) as Sj by (unfold slot; cbn [fst snd]; rewrite Hn; apply nth_error_nth'; exact Hj).
    split.
    - intros (e & (i & Si) & Se). assert (e = nth j (n_edges nd) 0) as <- by congruence. unfold slot in Si. cbn [fst snd] in Si. rewrite Hc in Si. apply nth_error_In in Si. exact Si.
    - intros Hin. apply In_nth_error in Hin. destruct Hin as (i & Hi). eexists. split; [|exact Sj]. exists i. unfold slot. cbn [fst snd]. rewrite Hc. exact Hi.
  Qed.

  (** the edges that go to the new node *)
  Definition keptE s (cut : list eid) (ps : list nid) : list eid := flat_map (fun p => kept_of cut (edges_at0 s p)) ps.

  Lemma input_terms_inv s (cut : list eid) ps next s' net next' :
    (forall p l, In (p, l) ps -> exists nd, s_nodes s p = Some nd /\ length (n_edges nd) = rank (n_t nd) /\
       forall j, j < length (n_edges nd) -> mem j l = mem (nth j (n_edges nd) 0) cut) ->
    input_terms ps next s = (s', Some (net, next')) ->
    s' = s /\ next' = next + length (keptE s cut (map fst ps)) /\
    (forall x, In x (net_labels net) -> x = 0 \/ next <= x < next') /\
    (forall x, next <= x < next' -> In x (net_labels net)) /\
    (forall p l, In (p, l) ps -> exists nd f, s_nodes s p = Some nd /\ In f net /\ fst f = n_t nd /\ forall j, j < length (n_edges nd) -> mem j l = true -> nth_error (snd f) j = Some 0) /\
    (forall k, k < length (keptE s cut (map fst ps)) -> exists p l nd f j, In (p, l) ps /\ s_nodes s p = Some nd /\ In f net /\ fst f = n_t nd /\
       nth_error (snd f) j = Some (next + k) /\ nth_error (n_edges nd) j = Some (nth k (keptE s cut (map fst ps)) 0)) /\
    (forall al b v, al 0 = v -> (forall k, k < length (keptE s cut (map fst ps)) -> al (next + k) = b (nth k (keptE s cut (map fst ps)) 0)) ->
       netprod net al = netprod (net_of s (map fst ps)) (fun x => if mem x cut then v else b x)).
  Proof.
    revert next net. induction ps as [|[p l] ps IH]; intros next net HP H.
    - injection H as <- <- <-. cbn. split; [reflexivity|]. split; [lia|]. split; [intros x []|]. split; [intros x Hx; lia|]. split; [intros ? ? []|].
      split; [intros k Hk; lia|]. reflexivity.
    - cbn [input_terms] in H. apply bind_inv in H. destruct H as (nd & s1 & H1 & H). apply get_node_inv in H1. destruct H1 as (-> & Hn).
      apply bind_inv in H. destruct H as ([net' n'] & s1 & H1 & H). injection H as -> <- <-. cbn [fst snd] in *.
      destruct (HP p l (or_introl eq_refl)) as (nd' & Hn' & HR & HM). assert (nd' = nd) as -> by congruence. clear Hn'.
      rewrite input_term_0 in *. cbn [fst snd] in *.
      assert (filter (free_at l) (seq 0 (rank (n_t nd))) = filter (keepP cut (n_edges nd)) (seq 0 (length (n_edges nd)))) as EF.
      { rewrite <- HR. apply filter_ext_seq. intros j Hj. unfold free_at, keepP. rewrite HM by exact Hj. reflexivity. }
      assert (forall j, j < length (n_edges nd) -> kpos (free_at l) j = kpos (keepP cut (n_edges nd)) j) as EK.
      { intros j Hj. unfold kpos. f_equal. apply filter_ext_seq. intros i Hi. unfold free_at, keepP. rewrite HM by lia. reflexivity. }
      rewrite EF, <- kept_length in H1.
      destruct (IH _ net' (fun q k Hq => HP q k (or_intror Hq)) H1) as (-> & -> & L1 & L2 & L3 & L4 & V). split; [reflexivity|].
      set (K := kept_of cut (n_edges nd)) in *. set (E := keptE s cut (map fst ps)) in *.
      assert (keptE s cut (map fst ((p, l) :: ps)) = K ++ E) as EE by (unfold K, E, keptE; cbn [map fst flat_map]; unfold edges_at0 at 1; rewrite Hn; reflexivity).
      rewrite EE, app_length. clear EE.
      assert (length K = length (filter (keepP cut (n_edges nd)) (seq 0 (length (n_edges nd))))) as LK by apply kept_length.
      split; [lia|]. split; [|split; [|split; [|split]]].
      + intros x Hx. rewrite net_labels_cons in Hx. apply in_app_iff in Hx. destruct Hx as [Hx|Hx].
        * cbn [snd] in Hx. apply in_map_iff in Hx. destruct Hx as (j & <- & Hj). apply in_seq in Hj. destruct (mem j l) eqn:Mj; [left; reflexivity|]. right.
          rewrite EK by lia. assert (keepP cut (n_edges nd) j = true) as KP by (unfold keepP; rewrite <- HM by lia; rewrite Mj; reflexivity).
          pose proof (kpos_lt (n := length (n_edges nd)) KP ltac:(lia)). lia.
        * apply L1 in Hx. lia.
      + intros x Hx. rewrite net_labels_cons. apply in_app_iff. destruct (Nat.lt_ge_cases x (next + length K)) as [Hl|Hl].
        * left. cbn [snd]. destruct (nth_error (filter (keepP cut (n_edges nd)) (seq 0 (length (n_edges nd)))) (x - next)) as [j|] eqn:Ej.
          -- apply kpos_of_nth in Ej. destruct Ej as (E1 & E2 & E3). apply in_map_iff. exists j. split; [|apply in_seq; lia].
             unfold keepP in E2. rewrite <- HM in E2 by exact E3. destruct (mem j l); [discriminate|]. rewrite EK by exact E3. lia.
          -- apply nth_error_None in Ej. lia.
        * right. apply L2. lia.
      + intros q k [E0|Hq].
        * injection E0 as <- <-. exists nd. eexists. split; [exact Hn|]. split; [left; reflexivity|]. split; [reflexivity|]. intros j Hj Mj. cbn [snd].
          rewrite nth_error_map, nth_error_nth' with (d := 0) by (rewrite seq_length; lia). rewrite seq_nth by lia. cbn [option_map Nat.add]. rewrite Mj. reflexivity.
        * destruct (L3 q k Hq) as (nd' & f & A & B & C). exists nd', f. split; [exact A|]. split; [right; exact B | exact C].
      + intros k Hk. destruct (Nat.lt_ge_cases k (length K)) as [Hl|Hl].
        * destruct (nth_error (filter (keepP cut (n_edges nd)) (seq 0 (length (n_edges nd)))) k) as [j|] eqn:Ej; [|apply nth_error_None in Ej; lia].
          apply kpos_of_nth in Ej. destruct Ej as (E1 & E2 & E3).
          exists p, l, nd. eexists. exists j. split; [left; reflexivity|]. split; [exact Hn|]. split; [left; reflexivity|]. split; [reflexivity|]. cbn [snd].
          rewrite nth_error_map, nth_error_nth' with (d := 0) by (rewrite seq_length; lia). rewrite seq_nth by lia. cbn [option_map Nat.add].
          assert (mem j l = false) as -> by (rewrite HM by exact E3; unfold keepP in E2; destruct (mem (nth j (n_edges nd) 0) cut); [discriminate | reflexivity]).
          rewrite EK by exact E3. split; [f_equal; lia|]. rewrite <- (kept_nth E2 E3), <- E1. rewrite app_nth1 by exact Hl. apply nth_error_nth'. exact Hl.
        * destruct (L4 (k - length K) ltac:(lia)) as (q & ql & nd' & f & j & A & B & C & D & F & G). exists q, ql, nd', f, j.
          split; [right; exact A|]. split; [exact B|]. split; [right; exact C|]. split; [exact D|]. split; [rewrite F; f_equal; lia|]. rewrite G. f_equal. rewrite app_nth2 by lia. reflexivity.
      + intros al b v H0 Hal. rewrite netprod_cons. cbn [net_of map]. rewrite netprod_cons. f_equal.
        * cbn [fst]. rewrite (fac_node Hn). unfold fval. cbn [fst snd]. f_equal. rewrite map_map. rewrite <- (gather_seq 0 (n_edges nd)) at 1. unfold gather. rewrite map_map, HR.
          apply map_ext_in. intros j Hj. apply in_seq in Hj. rewrite HM by lia. destruct (mem (nth j (n_edges nd) 0) cut) eqn:Mj; [exact H0|].
          rewrite EK by lia. assert (keepP cut (n_edges nd) j = true) as KP by (unfold keepP; rewrite Mj; reflexivity).
          pose proof (kpos_lt (n := length (n_edges nd)) KP ltac:(lia)) as Lj. rewrite Hal by lia. f_equal. rewrite app_nth1 by (fold K; lia).
          apply nth_error_nth_some. unfold K. rewrite (kept_nth KP) by lia. apply nth_error_nth'. lia.
        * apply V; [exact H0|]. intros k Hk. rewrite <- Nat.add_assoc. rewrite Hal by lia. f_equal. rewrite app_nth2 by lia. f_equal. lia.
  Qed.

  Lemma label_dim_fits (net : list (factor nat R)) out t : np_einsum letters net out = Some t ->
    net <> [] /\ (forall f, In f net -> shape (fst f) = map (label_dim net) (snd f)) /\
    t = Tensor (map (label_dim net) out) (fun ix => esum Nat.eq_dec (label_dim net) (nodup Nat.eq_dec (filter (fun l => negb (mem l out)) (net_labels net))) (netprod net) (fun l => nth (nindex l out) ix 0)).
  Proof.
    unfold np_einsum. destruct (negb _ && _ && _ && _ && _) eqn:G; [|discriminate]. intros E. injection E as <-.
    repeat (apply andb_prop in G; destruct G as [G ?]). split; [intros ->; discriminate G|]. split; [|reflexivity].
    intros f Hf. match goal with H : forallb (fun f => if list_eq_dec _ _ _ then true else false) net = true |- _ => rewrite forallb_forall in H; specialize (H f Hf); cbv beta in H; destruct (list_eq_dec Nat.eq_dec (shape (fst f)) (map (label_dim net) (snd f))) as [Q|Q]; [exact Q | discriminate] end.
  Qed.
  Lemma nindex_seq n k : k < n -> nindex (1 + k) (seq 1 n) = k.
  Proof.
    intros Hk. replace (1 + k) with (nth k (seq 1 n) 0) by (apply seq_nth, Hk). apply index_of_nth; [apply seq_NoDup | rewrite seq_length; exact Hk].
  Qed.
  Lemma keptE_forget D s cut ps : (forall p, In p ps -> ~ In p D) -> keptE (forget D s) cut ps = keptE s cut ps.
  Proof.
    intros H. unfold keptE. induction ps as [|p ps IH]; [reflexivity|]. cbn [flat_map]. rewrite IH by (intros q Hq; apply H; right; exact Hq).
    unfold edges_at0 at 1. rewrite forget_keep by (apply H; left; reflexivity). reflexivity.
  Qed.

  Lemma compute_inv D c s s' t nc d : wf (forget D s) -> s_nodes (forget D s) c = Some nc -> is_delta (n_t nc) d ->
    compute_contracted_tensor letters c s = (s', Some t) ->
    let sl := forget D s in let C := nodup Nat.eq_dec (n_edges nc) in
    s' = s /\ exists ps, get_partners c s = (s, Some ps) /\ partners sl c ps /\ ps <> [] /\
    shape t = map (edim sl) (keptE sl (n_edges nc) (map fst ps)) /\
    forall b, fval (t, keptE sl (n_edges nc) (map fst ps)) b = esum Nat.eq_dec (edim sl) C (netprod (net_of sl (c :: map fst ps))) b.
  Proof.
    intros W Hc Ht H sl C. unfold compute_contracted_tensor in H. apply bind_inv in H. destruct H as (ps & s1 & H1 & H).
    destruct (get_partners_inv W Hc H1) as (-> & P). apply bind_inv in H. destruct H as ([net nx] & s1 & H2 & H).
    destruct (np_einsum letters (fst (net, nx)) (seq 1 (snd (net, nx) - 1))) as [t'|] eqn:Ee; [|discriminate]. injection H as <- <-. cbn [fst snd] in *.
    assert (forall p, In p (map fst ps) -> ~ In p D) as HD. { intros p Hp. destruct (pt_node P Hp) as (nd & Hn). apply (forget_node Hn). }
    assert (forall p l, In (p, l) ps -> exists nd, s_nodes s p = Some nd /\ s_nodes sl p = Some nd) as HN.
    { intros p l Hp. assert (In p (map fst ps)) as Hq by (apply (in_map fst) in Hp; exact Hp). destruct (pt_node P Hq) as (nd & Hn). exists nd. split; [apply (forget_node Hn) | exact Hn]. }
    destruct (input_terms_inv (cut := n_edges nc) (ps := ps) (next := 1) (s := s) (s' := s1) (net := net) (next' := nx)) as (-> & Enx & L1 & L2 & L3 & L4 & V); [|exact H2|].
    { intros p l Hp. destruct (HN p l Hp) as (nd & Hn & Hn'). exists nd. split; [exact Hn|]. split; [apply (wf_rank W Hn')|]. intros j Hj. exact (mem_axes W P Hc Hp Hn' Hj). }
    rewrite <- (keptE_forget s (n_edges nc) HD) in *. fold sl in W, Hc, P, Enx, L4, V |- *. set (E := keptE sl (n_edges nc) (map fst ps)) in *.
    split; [reflexivity|]. exists ps. split; [exact H1|]. split; [exact P|].
    destruct (label_dim_fits Ee) as (Hne & Hfit & ->).
    assert (ps <> []) as Hps. { intros ->. injection H2 as <- _. apply Hne. reflexivity. }
    split; [exact Hps|].
    assert (forall e, In e (n_edges nc) -> edim sl e = d) as HdC.
    { intros e He. apply In_nth_error in He. destruct He as (i & Hi). assert (slot sl (c, i) = Some e) as Si by (unfold slot; cbn [fst snd]; rewrite Hc; exact Hi).
      pose proof (edim_dimat W Si) as K. unfold dimat in K. cbn [fst snd] in K. rewrite Hc, (proj1 Ht) in K. apply nth_error_In, repeat_spec in K. congruence. }
    assert (n_edges nc <> []) as HC0.
    { destruct ps as [|[p l] ps']; [congruence|]. destruct (pt_used P (p := p) (or_introl eq_refl)) as (a & e & (i & Si) & _). unfold slot in Si. cbn [fst snd] in Si. rewrite Hc in Si. intros K. rewrite K in Si. destruct i; discriminate. }
    assert (label_dim net 0 = d) as D0.
    { destruct ps as [|[p l] ps']; [congruence|]. destruct (pt_used P (p := p) (or_introl eq_refl)) as (a & e & He & Sa).
      destruct (L3 p l (or_introl eq_refl)) as (nd & f & Hn & Hf & Ef & Hj). destruct (HN p l (or_introl eq_refl)) as (nd' & Hn' & Hn2). assert (nd' = nd) as -> by congruence.
      pose proof Sa as Sa'. unfold slot in Sa'. cbn [fst snd] in Sa'. rewrite Hn2 in Sa'. assert (a < length (n_edges nd)) as La by (apply nth_error_Some; congruence).
      assert (mem a l = true) as Ma by (apply mem_In, (pt_axes P a (or_introl eq_refl)); eauto).
      specialize (Hj a La Ma). pose proof (edim_dimat W Sa) as K. unfold dimat in K. cbn [fst snd] in K. rewrite Hn2 in K. rewrite <- Ef, (Hfit f Hf), nth_error_map, Hj in K. injection K as K.
      rewrite K. apply HdC. destruct He as (i & Si). unfold slot in Si. cbn [fst snd] in Si. rewrite Hc in Si. apply nth_error_In in Si. exact Si. }
    assert (forall k, k < length E -> label_dim net (1 + k) = edim sl (nth k E 0)) as DE.
    { intros k Hk. destruct (L4 k Hk) as (p & l & nd & f & j & Hp & Hn & Hf & Ef & F1 & F2). destruct (HN p l Hp) as (nd' & Hn' & Hn2). assert (nd' = nd) as -> by congruence.
      assert (slot sl (p, j) = Some (nth k E 0)) as Sj by (unfold slot; cbn [fst snd]; rewrite Hn2; exact F2).
      pose proof (edim_dimat W Sj) as K. unfold dimat in K. cbn [fst snd] in K. rewrite Hn2, <- Ef, (Hfit f Hf), nth_error_map, F1 in K. injection K as K. exact K. }
    replace (nx - 1) with (length E) by lia. cbn [shape]. split.
    { rewrite <- seq_shift, map_map. transitivity (map (edim sl) (gather 0 E (seq 0 (length E)))); [|rewrite gather_seq; reflexivity]. unfold gather. rewrite map_map. apply map_ext_in. intros k Hk. apply in_seq in Hk. apply DE. lia. }
    intros b. unfold fval at 1. cbn [fst snd elt].
    assert (In 0 (net_labels net)) as I0.
    { destruct ps as [|[p l] ps']; [congruence|]. destruct (pt_used P (p := p) (or_introl eq_refl)) as (a & e & He & Sa).
      destruct (L3 p l (or_introl eq_refl)) as (nd & f & Hn & Hf & Ef & Hj). destruct (HN p l (or_introl eq_refl)) as (nd' & Hn' & Hn2). assert (nd' = nd) as -> by congruence.
      pose proof Sa as Sa'. unfold slot in Sa'. cbn [fst snd] in Sa'. rewrite Hn2 in Sa'. assert (a < length (n_edges nd)) as La by (apply nth_error_Some; congruence).
      assert (mem a l = true) as Ma by (apply mem_In, (pt_axes P a (or_introl eq_refl)); eauto).
      specialize (Hj a La Ma). apply nth_error_In in Hj. unfold net_labels. apply in_flat_map. exists f. auto. }
    assert (nodup Nat.eq_dec (filter (fun l => negb (mem l (seq 1 (length E)))) (net_labels net)) = [0]) as ->.
    { assert (forall x, In x (nodup Nat.eq_dec (filter (fun l => negb (mem l (seq 1 (length E)))) (net_labels net))) <-> x = 0) as K.
      { intros x. rewrite nodup_In, filter_In, Bool.negb_true_iff, mem_nIn, in_seq. split.
        - intros [Hx Hn]. apply L1 in Hx. lia.
        - intros ->. split; [exact I0 | lia]. }
      pose proof (NoDup_nodup Nat.eq_dec (filter (fun l => negb (mem l (seq 1 (length E)))) (net_labels net))) as N.
      destruct (nodup Nat.eq_dec (filter (fun l => negb (mem l (seq 1 (length E)))) (net_labels net))) as [|x [|y z]].
      - destruct (proj2 (K 0) eq_refl).
      - f_equal. apply K. left. reflexivity.
      - exfalso. assert (x = 0) by (apply K; left; reflexivity). assert (y = 0) by (apply K; right; left; reflexivity). subst. inversion N as [|? ? Q _]. apply Q. left. reflexivity. }
    rewrite esum_cons, D0. cbn [net_of map].
    transitivity (esum Nat.eq_dec (edim sl) C (fun b => (if alleq (map b (n_edges nc)) then r1 else r0) *! netprod (net_of sl (map fst ps)) b) b).
    - rewrite (@esum_delta R (edim sl) d C (n_edges nc)).
      + apply nsum_ext. intros v Hv. rewrite esum_nil. rewrite (V _ b v).
        * rewrite <- (net_of_ext (s := sl) (s' := s)).
          -- apply (dep_ext (netprod_dep (net_of s (map fst ps)))). intros x. assert (mem x C = mem x (n_edges nc)) as ->; [|reflexivity].
             apply Bool.eq_true_iff_eq. rewrite !mem_In. unfold C. apply nodup_In.
          -- intros m Hm. symmetry. apply forget_keep. apply HD, Hm.
        * unfold upd. destruct (Nat.eq_dec 0 0); [reflexivity | congruence].
        * intros k Hk. unfold upd. destruct (Nat.eq_dec (1 + k) 0); [discriminate|]. rewrite nindex_seq by exact Hk.
          rewrite (nth_indep _ _ (b 0)) by (rewrite map_length; exact Hk). apply map_nth.
      + apply (dep_ext (netprod_dep (net_of sl (map fst ps)))).
      + apply NoDup_nodup.
      + intros E0. destruct (n_edges nc) as [|x rest] eqn:Ec; [congruence|]. assert (In x C) as Hx by (unfold C; apply nodup_In; left; reflexivity). rewrite E0 in Hx. destruct Hx.
      + intros x. unfold C. apply nodup_In.
      + intros x Hx. apply HdC. unfold C in Hx. apply nodup_In in Hx. exact Hx.
    - apply esum_ext_range. intros b' _ Hb'. rewrite netprod_cons. rewrite (fac_node Hc). unfold fval. cbn [fst snd]. rewrite (proj2 Ht); [reflexivity|].
      rewrite (proj1 Ht), <- (wf_rank W Hc), <- map_repeat. revert Hb' HdC. unfold C. clear. intros Hb HdC. assert (forall e, In e (n_edges nc) -> b' e < d) as K by (intros e He; rewrite <- (HdC e He); apply Hb, nodup_In, He).
      revert K. clear. induction (n_edges nc) as [|e l IH]; intros K; [constructor|]. constructor; [apply K; left; reflexivity | apply IH; intros; apply K; right; assumption].
  Qed.
End Net.
