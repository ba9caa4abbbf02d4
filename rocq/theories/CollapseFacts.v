(** * CollapseFacts: expanding a collapsed array gives it back *)
From Verif Require Import Prelude Res Collapse.
Set Implicit Arguments.
Unset Strict Implicit.

(** the width after padding *)
Definition padded (w : nat) : nat := if mem w [1; 2; 4; 8] then w else w + (if w =? 3 then 1 else 8 - w).
Definition pad (s w : nat) (r : list number) : list number := r ++ repeat (repeat 0 s) (padded w - w).
Lemma padded_ok s w : In s [1; 2; 4; 8] -> 1 <= w -> s * w <= 8 -> padded w * s = get_dtype (s * w) /\ w <= padded w.
Proof.
  intros Hs Hw H. assert (w <= 8) as Hw8 by (destruct Hs as [<-|[<-|[<-|[<-|[]]]]]; lia).
  do 9 (destruct w as [|w]; [try lia; destruct Hs as [<-|[<-|[<-|[<-|[]]]]]; try (cbn in H; lia); (split; [reflexivity | apply Nat.leb_le; reflexivity])|]).
  lia.
Qed.
Lemma chunks_concat s r : Forall (fun x => length x = s) r -> chunks (length r) s (concat r) = r.
Proof.
  induction 1 as [|x r Hx Hr IH]; [reflexivity|]. cbn [length chunks concat]. subst s.
  rewrite firstn_app, Nat.sub_diag, firstn_all, skipn_app, Nat.sub_diag, skipn_all. cbn [firstn skipn app]. rewrite app_nil_r, IH. reflexivity.
Qed.
Lemma concat_len s (r : list number) : Forall (fun x => length x = s) r -> length (concat r) = length r * s.
Proof. induction 1 as [|x r Hx Hr IH]; [reflexivity|]. cbn. rewrite app_length, IH. lia. Qed.

Definition rect (s w : nat) (rows : list (list number)) : Prop := Forall (fun r => length r = w /\ Forall (fun x => length x = s) r) rows.
Lemma view_all s k W rows : W * s = k -> 0 < k -> rect s W rows -> view s k W rows = Ok (A2 1 (map (fun r => [concat r]) rows)).
Proof.
  intros E Hk H. unfold view. rewrite E, Nat.mod_same, Nat.div_same by lia. cbn [Nat.eqb]. do 2 f_equal. apply map_ext_in.
  intros r Hr. unfold rect in H. rewrite Forall_forall in H. destruct (H r Hr) as [L F]. cbn [chunks]. f_equal. apply firstn_all2. rewrite (concat_len F), L. lia.
Qed.
Lemma squeeze_col (rows : list (list number)) : length rows <> 1 -> squeeze (A2 1 (map (fun r => [concat r]) rows)) = A1 (map (@concat byte) rows).
Proof. intros H. cbn [squeeze Nat.eqb]. rewrite map_map. cbn [hd]. destruct rows as [|a [|b r]]; [reflexivity | cbn in H; lia | reflexivity]. Qed.
Lemma squeeze_A1 l : length l <> 1 -> squeeze (A1 l) = A1 l.
Proof. destruct l as [|a [|b r]]; cbn; intros H; [reflexivity | lia | reflexivity]. Qed.
Lemma rect_pad s w rows : w <= padded w -> rect s w rows -> rect s (padded w) (map (pad s w) rows).
Proof.
  intros Hw H. unfold rect in *. rewrite Forall_forall in *. intros r' Hr. apply in_map_iff in Hr as (r & <- & Hr). destruct (H r Hr) as [L F]. unfold pad. split.
  - rewrite app_length, repeat_length. lia.
  - apply Forall_app. split; [exact F|]. apply Forall_forall. intros x Hx. apply repeat_spec in Hx as ->. apply repeat_length.
Qed.
Lemma collapse_ok s w rows : In s [1; 2; 4; 8] -> 1 <= w -> s * w <= 8 -> rect s w rows -> length rows <> 1 ->
  collapse s (A2 w rows) = Ok (A1 (map (fun r => concat (pad s w r)) rows)).
Proof.
  intros Hs Hw H R N. destruct (padded_ok Hs Hw H) as [E1 E2]. assert (0 < s) as Ps by (destruct Hs as [<-|[<-|[<-|[<-|[]]]]]; lia).
  assert (0 < get_dtype (s * w)) as Hk by (rewrite <- E1; apply Nat.mul_pos_pos; lia).
  unfold collapse. destruct (Nat.ltb_spec 8 (s * w)); [lia|]. cbv zeta. pose proof (rect_pad E2 R) as Rp. unfold pad in *. unfold padded in *. destruct (mem w [1; 2; 4; 8]) eqn:Em.
  - rewrite (view_all E1 Hk R). cbn [rbind]. rewrite squeeze_col by exact N. do 2 f_equal. apply map_ext. intros r. rewrite Nat.sub_diag. cbn [repeat]. rewrite app_nil_r. reflexivity.
  - replace (w + (if w =? 3 then 1 else 8 - w) - w) with (if w =? 3 then 1 else 8 - w) in * by lia.
    rewrite (view_all E1 Hk Rp). cbn [rbind]. rewrite squeeze_col by (rewrite map_length; exact N). rewrite squeeze_A1 by (rewrite !map_length; exact N). rewrite map_map. reflexivity.
Qed.
Lemma expand_ok s w rows : In s [1; 2; 4; 8] -> 1 <= w -> s * w <= 8 -> rect s w rows ->
  expand (get_dtype (s * w)) s w 2 (A1 (map (fun r => concat (pad s w r)) rows)) = Ok (A2 w rows).
Proof.
  intros Hs Hw H R. destruct (padded_ok Hs Hw H) as [E1 E2]. assert (0 < s) as Ps by (destruct Hs as [<-|[<-|[<-|[<-|[]]]]]; lia).
  unfold expand. cbn [Nat.leb]. unfold view. rewrite Nat.mul_1_l, <- E1, Nat.mod_mul, Nat.div_mul by lia. cbn [Nat.eqb rbind]. rewrite !map_map.
  pose proof (rect_pad E2 R) as Rp. unfold rect in *. rewrite Forall_forall in *.
  assert (forall r, In r rows -> chunks (padded w) s (concat [concat (pad s w r)]) = pad s w r) as Hc.
  { intros r Hr. cbn [concat]. rewrite app_nil_r. destruct (Rp (pad s w r)) as [L F]; [apply in_map, Hr|]. rewrite <- L. apply chunks_concat, F. }
  assert (w <= 8) as Hw8 by (destruct Hs as [<-|[<-|[<-|[<-|[]]]]]; lia).
  destruct (mem w [3; 5; 6; 7]) eqn:Em.
  - rewrite Nat.min_l by exact E2. do 2 f_equal. rewrite <- (map_id rows) at 2. apply map_ext_in. intros r Hr.
    rewrite (Hc r Hr). destruct (R r Hr) as [L _]. unfold pad. rewrite firstn_app, L, Nat.sub_diag, <- L, firstn_all. apply app_nil_r.
  - assert (padded w = w) as Ew by (do 9 (destruct w as [|w]; [try lia; try discriminate; reflexivity|]); lia).
    rewrite Ew in *. do 2 f_equal. rewrite <- (map_id rows) at 2. apply map_ext_in. intros r Hr. rewrite (Hc r Hr). unfold pad. rewrite Ew, Nat.sub_diag. apply app_nil_r.
Qed.
