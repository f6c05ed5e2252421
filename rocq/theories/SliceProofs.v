(** Python slices: [range( *slice.indices(n))] lists the positions kept by a slice. *)
From Coq Require Import Sorted.
From Verif Require Import PyBase IndexModel DMModel StructModel StructSpec PowerModel PowerSpec StructProofs LayoutThms.

Lemma ssorted_ext {A} (R : A -> A -> Prop) : (forall x, ~ R x x) -> (forall x y, R x y -> R y x -> False) ->
  forall l l', StronglySorted R l -> StronglySorted R l' -> (forall p, In p l <-> In p l') -> l = l'.
Proof.
  intros Hirr Has. induction l as [|p l IH]; intros [|q l'] H H' Hi.
  - reflexivity.
  - exfalso. apply (proj2 (Hi q)). now left.
  - exfalso. apply (proj1 (Hi p)). now left.
  - apply StronglySorted_inv in H as [Hs Hf]. apply StronglySorted_inv in H' as [Hs' Hf'].
    rewrite Forall_forall in Hf, Hf'.
    assert (E : p = q).
    { destruct (proj1 (Hi p) (or_introl eq_refl)) as [E|E]; [auto|].
      destruct (proj2 (Hi q) (or_introl eq_refl)) as [E'|E']; [auto|].
      exfalso. apply (Has p q); auto. }
    subst q. f_equal. apply IH; auto. intros x. specialize (Hi x). simpl in Hi. split; intros Hx.
    + destruct (proj1 Hi (or_intror Hx)) as [E|E]; [|exact E]. subst x. exfalso. now apply (Hirr p), Hf.
    + destruct (proj2 Hi (or_intror Hx)) as [E|E]; [|exact E]. subst x. exfalso. now apply (Hirr p), Hf'.
Qed.

Lemma ssorted_map_seq (R : Z -> Z -> Prop) (f : nat -> Z) : (forall a b, a < b -> R (f a) (f b)) ->
  forall n k, StronglySorted R (map f (seq k n)).
Proof.
  intros H n. induction n as [|n IH]; intros k; simpl; constructor; [apply IH|].
  apply Forall_forall. intros x Hx. apply in_map_iff in Hx as (j & <- & Hj). apply in_seq in Hj. apply H. lia.
Qed.
Lemma ssorted_filter {A} (R : A -> A -> Prop) f l : StronglySorted R l -> StronglySorted R (filter f l).
Proof.
  induction 1 as [|x l Hs IH Hf]; simpl; [constructor|]. destruct (f x); [|exact IH]. constructor; [exact IH|].
  rewrite Forall_forall in *. intros y Hy. apply filter_In in Hy as [Hy _]. auto.
Qed.
Lemma ssorted_app {A} (R : A -> A -> Prop) l l' : StronglySorted R l -> StronglySorted R l' ->
  (forall x y, In x l -> In y l' -> R x y) -> StronglySorted R (l ++ l').
Proof.
  induction l as [|a l IH]; simpl; intros H H' Hc; [exact H'|]. apply StronglySorted_inv in H as [Hs Hf]. constructor.
  - apply IH; auto.
  - rewrite Forall_app. split; [exact Hf|]. apply Forall_forall. intros y Hy. apply Hc; auto.
Qed.
Lemma ssorted_rev {A} (R : A -> A -> Prop) l : StronglySorted R l -> StronglySorted (fun x y => R y x) (rev l).
Proof.
  induction 1 as [|x l Hs IH Hf]; simpl; [constructor|]. apply ssorted_app; [exact IH|repeat constructor|].
  intros y z Hy [<-|[]]. rewrite <- in_rev in Hy. rewrite Forall_forall in Hf. auto.
Qed.

Lemma in_pyrange3_pos lo hi c x : (0 < c)%Z -> In x (pyrange3 lo hi c) <-> (lo <= x < hi /\ (x - lo) mod c = 0)%Z.
Proof.
  intros Hc. unfold pyrange3, pyrange3_len. replace (0 <? c)%Z with true by lia. rewrite in_map_iff. split.
  - intros (k & <- & Hk). apply in_seq in Hk. destruct (lo <? hi)%Z eqn:E; [|simpl in Hk; lia].
    assert (0 <= (hi - lo - 1) / c)%Z by (apply Z.div_pos; lia).
    assert (Z.of_nat k <= (hi - lo - 1) / c)%Z by lia.
    assert (c * ((hi - lo - 1) / c) <= hi - lo - 1)%Z by (apply Z.mul_div_le; lia).
    split; [nia|]. replace (lo + Z.of_nat k * c - lo)%Z with (Z.of_nat k * c)%Z by lia. now rewrite Z_mod_mult.
  - intros [Hx Hm]. exists (Z.to_nat ((x - lo) / c)). assert (0 <= (x - lo) / c)%Z by (apply Z.div_pos; lia).
    pose proof (Z.div_mod (x - lo) c). split; [nia|]. apply in_seq. replace (lo <? hi)%Z with true by lia.
    assert ((x - lo) / c <= (hi - lo - 1) / c)%Z by (apply Z.div_le_mono; lia). lia.
Qed.
Lemma in_pyrange3_neg lo hi c x : (c < 0)%Z -> In x (pyrange3 lo hi c) <-> (hi < x <= lo /\ (lo - x) mod (- c) = 0)%Z.
Proof.
  intros Hc. unfold pyrange3, pyrange3_len. replace (0 <? c)%Z with false by lia. rewrite in_map_iff. split.
  - intros (k & <- & Hk). apply in_seq in Hk. destruct (hi <? lo)%Z eqn:E; [|simpl in Hk; lia].
    assert (0 <= (lo - hi - 1) / (- c))%Z by (apply Z.div_pos; lia).
    assert (Z.of_nat k <= (lo - hi - 1) / (- c))%Z by lia.
    assert (- c * ((lo - hi - 1) / (- c)) <= lo - hi - 1)%Z by (apply Z.mul_div_le; lia).
    split; [nia|]. replace (lo - (lo + Z.of_nat k * c))%Z with (Z.of_nat k * (- c))%Z by lia. now rewrite Z_mod_mult.
  - intros [Hx Hm]. exists (Z.to_nat ((lo - x) / (- c))). assert (0 <= (lo - x) / (- c))%Z by (apply Z.div_pos; lia).
    pose proof (Z.div_mod (lo - x) (- c)). split; [nia|]. apply in_seq. replace (hi <? lo)%Z with true by lia.
    assert ((lo - x) / (- c) <= (lo - hi - 1) / (- c))%Z by (apply Z.div_le_mono; lia). lia.
Qed.

Lemma pyrange_sorted n : StronglySorted Z.lt (pyrange n).
Proof. apply ssorted_map_seq. intros; lia. Qed.

Lemma slice_range_positions sl n : (0 <= n)%Z -> sl_step sl <> Some 0%Z -> slice_range sl n = Ok (py_slice_positions n sl).
Proof.
  intros Hn Hs. unfold slice_range, slice_indices, py_slice_positions. 
  set (c := match sl_step sl with None => 1%Z | Some k => k end).
  assert (Hc : c <> 0%Z) by (unfold c; destruct (sl_step sl) as [k|]; [intros ->; congruence|lia]).
  replace (n <? 0)%Z with false by lia. replace (c =? 0)%Z with false by lia. cbn [rbind]. f_equal.
  destruct (0 <? c)%Z eqn:E.
  - replace (c <? 0)%Z with false by lia.
    set (lo := match sl_start sl with None => 0%Z | Some v => slice_adjust v n 0 n end).
    set (hi := match sl_stop sl with None => n | Some v => slice_adjust v n 0 n end).
    assert (Elo : bound n 0 n 0 (sl_start sl) = lo).
    { unfold lo, bound, clip, slice_adjust. destruct (sl_start sl) as [v|]; [|reflexivity]. destruct (v <? 0)%Z eqn:Ev; lia. }
    assert (Ehi : bound n 0 n n (sl_stop sl) = hi).
    { unfold hi, bound, clip, slice_adjust. destruct (sl_stop sl) as [v|]; [|reflexivity]. destruct (v <? 0)%Z eqn:Ev; lia. }
    rewrite Elo, Ehi.
    assert (Hb : (0 <= lo /\ hi <= n)%Z).
    { unfold lo, hi, slice_adjust. split; [destruct (sl_start sl) as [v|]|destruct (sl_stop sl) as [v|]]; try lia; destruct (v <? 0)%Z eqn:Ev; lia. }
    apply (ssorted_ext Z.lt); [intros; lia|intros; lia| |apply ssorted_filter, pyrange_sorted|].
    + apply ssorted_map_seq. intros; nia.
    + intros x. rewrite in_pyrange3_pos by lia. rewrite filter_In, in_pyrange, !andb_true_iff. lia.
  - replace (c <? 0)%Z with true by lia.
    set (lo := match sl_start sl with None => (n - 1)%Z | Some v => slice_adjust v n (-1) (n - 1) end).
    set (hi := match sl_stop sl with None => (-1)%Z | Some v => slice_adjust v n (-1) (n - 1) end).
    assert (Elo : bound n (-1) (n - 1) (n - 1) (sl_start sl) = lo).
    { unfold lo, bound, clip, slice_adjust. destruct (sl_start sl) as [v|]; [|reflexivity]. destruct (v <? 0)%Z eqn:Ev; lia. }
    assert (Ehi : bound n (-1) (n - 1) (-1) (sl_stop sl) = hi).
    { unfold hi, bound, clip, slice_adjust. destruct (sl_stop sl) as [v|]; [|reflexivity]. destruct (v <? 0)%Z eqn:Ev; lia. }
    rewrite Elo, Ehi.
    assert (Hb : (lo <= n - 1 /\ -1 <= hi)%Z).
    { unfold lo, hi, slice_adjust. split; [destruct (sl_start sl) as [v|]|destruct (sl_stop sl) as [v|]]; try lia; destruct (v <? 0)%Z eqn:Ev; lia. }
    apply (ssorted_ext (fun x y => Z.lt y x)); [intros; lia|intros; lia| |apply ssorted_filter, ssorted_rev, pyrange_sorted|].
    + apply ssorted_map_seq. intros; nia.
    + intros x. rewrite in_pyrange3_neg by lia. rewrite filter_In, <- in_rev, in_pyrange, !andb_true_iff. lia.
Qed.

Lemma slice_range_all n : (0 <= n)%Z -> slice_range slice_all n = Ok (pyrange n).
Proof.
  intros Hn. unfold slice_range, slice_indices. simpl. replace (n <? 0)%Z with false by lia. cbn [rbind]. f_equal.
  apply (ssorted_ext Z.lt); [intros; lia|intros; lia|apply ssorted_map_seq; intros; nia|apply pyrange_sorted|].
  intros x. rewrite in_pyrange3_pos by lia. rewrite Z.mod_1_r, in_pyrange. lia.
Qed.
Lemma slice_range_neg sl n : (n < 0)%Z -> slice_range sl n = Err EValue.
Proof. intros H. unfold slice_range, slice_indices. replace (n <? 0)%Z with true by lia. reflexivity. Qed.
Lemma slice_range_step0 sl n : sl_step sl = Some 0%Z -> slice_range sl n = Err EValue.
Proof. intros H. unfold slice_range, slice_indices. rewrite H. destruct (n <? 0)%Z; reflexivity. Qed.

Lemma py_slice_positions_in n sl i : In i (py_slice_positions n sl) -> (0 <= i < n)%Z.
Proof.
  unfold py_slice_positions. destruct (0 <? _)%Z; rewrite filter_In; intros [H _].
  - now apply in_pyrange.
  - rewrite <- in_rev in H. now apply in_pyrange.
Qed.
Lemma py_slice_positions_all n : (0 <= n)%Z -> py_slice_positions n slice_all = pyrange n.
Proof.
  intros Hn. pose proof (slice_range_positions slice_all n Hn) as H. rewrite slice_range_all in H by exact Hn.
  assert (E : @Ok (list Z) (pyrange n) = Ok (py_slice_positions n slice_all)) by (apply H; discriminate). now injection E.
Qed.
