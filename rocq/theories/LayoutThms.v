From Coq Require Import Permutation Sorted.
From Verif Require Import PyBase IndexModel DMModel StructModel StructSpec IndexProofs StructProofs LayoutProofs.

(** ** Size *)

Lemma list_sum_perm l l' : Permutation l l' -> list_sum l = list_sum l'.
Proof. induction 1; simpl; lia. Qed.

Lemma list_sum_flat_map {A B} (f : B -> nat) (g : A -> list B) l :
  list_sum (map f (flat_map g l)) = list_sum (map (fun a => list_sum (map f (g a))) l).
Proof.
  induction l as [|a l IH]; simpl; [reflexivity|]. rewrite map_app, list_sum_app, IH. reflexivity.
Qed.

Lemma list_sum_const {A} (f : A -> nat) c l : (forall a, In a l -> f a = c) -> list_sum (map f l) = length l * c.
Proof.
  induction l as [|a l IH]; intros H; simpl; [reflexivity|].
  rewrite (H a (or_introl eq_refl)), IH; [reflexivity|]. intros; apply H; now right.
Qed.

Lemma pyrange_length n : length (pyrange n) = Z.to_nat n.
Proof. unfold pyrange. now rewrite map_length, seq_length. Qed.

Lemma flat_map_length_const {A B} (f : A -> list B) c l :
  (forall a, In a l -> length (f a) = c) -> length (flat_map f l) = length l * c.
Proof.
  induction l as [|a l IH]; intros H; simpl; [reflexivity|].
  rewrite app_length, (H a (or_introl eq_refl)), IH; [reflexivity|]. intros; apply H; now right.
Qed.

Lemma listindices_count dims : length (listindices dims) = dims_count dims.
Proof.
  induction dims as [|d dims IH]; [reflexivity|].
  rewrite listindices_cons. rewrite (flat_map_length_const _ (length (listindices dims))).
  - rewrite pyrange_length, IH. reflexivity.
  - intros i _. now rewrite map_length.
Qed.

Lemma s_size_eq es order : s_size (mkStruct es order) =
  list_sum (map (fun e => dims_count (e_dims e) * match e_struct e with None => sp_nnz (e_sp e) | Some s' => s_size s' end) es).
Proof. simpl. f_equal. apply map_ext. intros [nm dims st sp sy orig sh]. reflexivity. Qed.

Lemma tot_size s : Wf s -> tot s (leaves s) = s_size s.
Proof.
  intros Hw. induction Hw as [es order Hnd Hp Hsp Hsub IH].
  pose proof (Wf_intro es order Hnd Hp Hsp Hsub) as Hw. set (s := mkStruct es order) in *.
  unfold tot.
  rewrite (list_sum_perm _ _ (Permutation_map _ (leaves_perm es order Hnd Hp))).
  rewrite list_sum_flat_map. unfold s at 2. rewrite s_size_eq. f_equal. apply map_ext_in. intros e He.
  unfold einds. rewrite entry_indices_eq, list_sum_flat_map.
  rewrite (list_sum_const _ (match e_struct e with None => sp_nnz (e_sp e) | Some s' => s_size s' end)).
  - now rewrite listindices_count.
  - intros i Hi. apply in_listindices in Hi as (idx & -> & Hd). rewrite map_map. unfold ch.
    destruct (e_struct e) as [s'|] eqn:Es.
    + rewrite <- (IH e s' He Es).
      pose proof (tot_block s (KS (e_name e) :: map KI idx) s' Hw (Block_here s e idx s' He Es Hd)) as Ht.
      unfold tot in Ht. rewrite map_map in Ht. exact Ht.
    + simpl. rewrite app_nil_r. unfold leaf_sp.
      rewrite (Leaf_get s (KS (e_name e) :: map KI idx) e Hw); [lia|]. now apply Leaf_prim.
Qed.

(** ** Grouping *)

Lemma NoDup_In_Perm {A} (l l' : list A) : NoDup l -> NoDup l' -> (forall x, In x l <-> In x l') -> Permutation l l'.
Proof. apply NoDup_Permutation. Qed.

Lemma Regroup_names es es' : Forall2 RegroupE es es' -> map e_name es = map e_name es'.
Proof. induction 1 as [|e e' es es' H _ IH]; simpl; [reflexivity|]. destruct H; simpl; now rewrite IH. Qed.

Lemma Regroup_refl s : Regroup s s.
Proof.
  induction s as [es order IH _] using structure_ind2. constructor; [|reflexivity].
  induction es as [|e es IHe]; constructor.
  - destruct e as [nm dims [s'|] sp sy orig sh]; constructor. eapply IH; [left; reflexivity|reflexivity].
  - apply IHe. intros e0 s' Hin. apply IH. right; exact Hin.
Qed.

Lemma Forall2_In_l {A B} (R : A -> B -> Prop) l l' a : Forall2 R l l' -> In a l -> exists b, In b l' /\ R a b.
Proof.
  induction 1 as [|x y l l' Hr _ IH]; intros Hin; [destruct Hin|].
  destruct Hin as [->|Hin]; [exists y; split; [left; reflexivity|exact Hr]|].
  destruct (IH Hin) as (b & Hb & Hr'). exists b. split; [right; exact Hb|exact Hr'].
Qed.

Lemma Forall2_In_r {A B} (R : A -> B -> Prop) l l' b : Forall2 R l l' -> In b l' -> exists a, In a l /\ R a b.
Proof.
  induction 1 as [|x y l l' Hr _ IH]; intros Hin; [destruct Hin|].
  destruct Hin as [->|Hin]; [exists x; split; [left; reflexivity|exact Hr]|].
  destruct (IH Hin) as (a & Ha & Hr'). exists a. split; [right; exact Ha|exact Hr'].
Qed.

Lemma Regroup_Wf s : forall s', Regroup s s' -> Wf s -> Wf s'.
Proof.
  induction s as [es order IH _] using structure_ind2. intros s' Hr Hw.
  inversion Hr as [es0 es' o o' Hes Ho]; subst. inversion Hw as [es0 o0 Hnd Hp Hsp Hsub]; subst.
  constructor.
  - now rewrite <- (Regroup_names _ _ Hes).
  - rewrite <- Ho, Hp. now rewrite (Regroup_names _ _ Hes).
  - intros e' He'. destruct (Forall2_In_r _ _ _ _ Hes He') as (e & He & HR).
    specialize (Hsp e He). destruct HR; exact Hsp.
  - intros e' s1' He' Es'. destruct (Forall2_In_r _ _ _ _ Hes He') as (e & He & HR).
    destruct HR as [|n d s1 s2 sp sy orig sh HR]; simpl in Es'; [discriminate|]. injection Es' as ->.
    eapply (IH _ s1 He eq_refl); [exact HR|]. eapply Hsub; [exact He|reflexivity].
Qed.

Lemma Regroup_leaf s : forall s' ci, Regroup s s' -> (exists e, Leaf s ci e) <-> (exists e, Leaf s' ci e).
Proof.
  induction s as [es order IH _] using structure_ind2. intros s' ci Hr.
  inversion Hr as [es0 es' o o' Hes Ho]; subst. split.
  - intros (e & Hl). apply Leaf_inv in Hl as (e0 & idx & c & -> & He & Hd & Hc). simpl in He.
    destruct (Forall2_In_l _ _ _ _ Hes He) as (e' & He' & HR).
    destruct HR as [n d sp sy orig sh|n d s1 s2 sp sy orig sh HR].
    + destruct Hc as [(_ & -> & ->)|(s' & Es & _)]; [|discriminate].
      rewrite app_nil_r. eexists. eapply Leaf_prim; eauto.
    + destruct Hc as [(Es & _)|(s' & Es & Hl)]; [discriminate|]. injection Es as <-.
      destruct (proj1 (IH _ s1 He eq_refl s2 c HR) (ex_intro _ e Hl)) as (e2 & Hl2).
      exists e2. exact (Leaf_sub (mkStruct es' o') (mkEntry n d (Some s2) sp sy orig sh) idx s2 c e2 He' eq_refl Hd Hl2).
  - intros (e & Hl). apply Leaf_inv in Hl as (e0 & idx & c & -> & He & Hd & Hc). simpl in He.
    destruct (Forall2_In_r _ _ _ _ Hes He) as (e' & He' & HR).
    destruct HR as [n d sp sy orig sh|n d s1 s2 sp sy orig sh HR].
    + destruct Hc as [(_ & -> & ->)|(s' & Es & _)]; [|discriminate].
      rewrite app_nil_r. eexists. eapply Leaf_prim; eauto.
    + destruct Hc as [(Es & _)|(s' & Es & Hl)]; [discriminate|]. injection Es as <-.
      destruct (proj2 (IH _ s1 He' eq_refl s2 c HR) (ex_intro _ e Hl)) as (e2 & Hl2).
      exists e2. exact (Leaf_sub (mkStruct es order) (mkEntry n d (Some s1) sp sy orig sh) idx s1 c e2 He' eq_refl Hd Hl2).
Qed.

Lemma Regroup_size s : forall s', Regroup s s' -> s_size s = s_size s'.
Proof.
  induction s as [es order IH _] using structure_ind2. intros s' Hr.
  inversion Hr as [es0 es' o o' Hes Ho]; subst. simpl. f_equal. clear Hr Ho.
  induction Hes as [|e e' es es' HR _ IHes]; simpl; [reflexivity|].
  rewrite IHes by (intros e0 s0 Hin; apply IH; right; exact Hin). f_equal.
  destruct HR as [|n d s1 s2 sp sy orig sh HR]; simpl; [reflexivity|]. f_equal.
  eapply IH; [left; reflexivity|reflexivity|exact HR].
Qed.

Lemma grouping_perm s s' : Wf s -> Regroup s s' ->
  Permutation (traverseCanonicalIndex s) (traverseCanonicalIndex s') /\
  (forall c c', casadi_structure s = Ok c -> casadi_structure s' = Ok c' -> cs_size c = cs_size c').
Proof.
  intros Hw Hr. pose proof (Regroup_Wf s s' Hr Hw) as Hw'. split.
  - rewrite !traverse_leaves. apply NoDup_Permutation; try now apply NoDup_leaves.
    intros ci. rewrite !in_leaves by assumption. now apply Regroup_leaf.
  - intros c c' Hc Hc'.
    destruct (casadi_structure_ok s Hw) as (d & Hd & _ & Hs & _).
    destruct (casadi_structure_ok s' Hw') as (d' & Hd' & _ & Hs' & _).
    rewrite Hc in Hd. rewrite Hc' in Hd'. injection Hd as <-. injection Hd' as <-.
    rewrite Hs, Hs', !tot_size by assumption. now apply Regroup_size.
Qed.

Lemma precedes_flat_map {A B} (f : A -> list B) l a b x y :
  precedes l a b -> In x (f a) -> In y (f b) -> precedes (flat_map f l) x y.
Proof.
  intros (l1 & l2 & l3 & ->) Hx Hy. apply in_split in Hx as (x1 & x2 & Hx). apply in_split in Hy as (y1 & y2 & Hy).
  exists (flat_map f l1 ++ x1), (x2 ++ flat_map f l2 ++ y1), (y2 ++ flat_map f l3).
  rewrite flat_map_app. simpl. rewrite flat_map_app. simpl. rewrite Hx, Hy.
  repeat (rewrite <- ?app_assoc; simpl). reflexivity.
Qed.

Lemma precedes_in_flat_map {A B} (f : A -> list B) l a x y :
  In a l -> precedes (f a) x y -> precedes (flat_map f l) x y.
Proof.
  intros Ha (l1 & l2 & l3 & E). apply in_split in Ha as (a1 & a2 & ->).
  rewrite flat_map_app. simpl. rewrite E.
  exists (flat_map f a1 ++ l1), l2, (l3 ++ flat_map f a2). repeat (rewrite <- ?app_assoc; simpl). reflexivity.
Qed.

Lemma precedes_nth {A} (l : list A) i j x y :
  nth_error l i = Some x -> nth_error l j = Some y -> i < j -> precedes l x y.
Proof.
  intros Hx Hy Hij. apply nth_error_split in Hx as (l1 & l2 & -> & Hl).
  rewrite nth_error_app2 in Hy by lia. destruct (j - length l1) as [|m] eqn:E; [lia|].
  simpl in Hy. apply nth_error_split in Hy as (l3 & l4 & -> & _). exists l1, l3, l4. reflexivity.
Qed.

Lemma precedes_seq n i j : i < j -> j < n -> precedes (seq 0 n) i j.
Proof.
  intros Hij Hj. apply precedes_nth with (i := i) (j := j); auto.
  - rewrite nth_error_nth' with (d := 0); [|rewrite seq_length; lia]. rewrite seq_nth by lia. reflexivity.
  - rewrite nth_error_nth' with (d := 0); [|rewrite seq_length; lia]. rewrite seq_nth by lia. reflexivity.
Qed.

(** position of a block in the round robin *)
Lemma precedes_round_robin {A} (ls : list (list A)) i j k k' (li lj : list A) x y :
  nth_error ls i = Some li -> nth_error ls j = Some lj ->
  nth_error li k = Some x -> nth_error lj k' = Some y ->
  (k < k' \/ (k = k' /\ i < j)) -> precedes (round_robin ls) x y.
Proof.
  intros Hi Hj Hx Hy Hlt. unfold round_robin.
  assert (Hk' : k' < list_max (map (@length A) ls)).
  { assert (Hl : k' < length lj) by (apply nth_error_Some; congruence).
    apply nth_error_In in Hj. pose proof (list_max_le (map (@length A) ls) (list_max (map (@length A) ls))) as [H _].
    specialize (H (le_n _)). rewrite Forall_forall in H. specialize (H _ (in_map _ _ _ Hj)). simpl in *; lia. }
  assert (Hxk : In x (flat_map (fun l => match nth_error l k with Some x => [x] | None => [] end) ls)).
  { apply in_flat_map. exists li. split; [eapply nth_error_In; eauto|]. rewrite Hx. left; reflexivity. }
  assert (Hyk : In y (flat_map (fun l => match nth_error l k' with Some x => [x] | None => [] end) ls)).
  { apply in_flat_map. exists lj. split; [eapply nth_error_In; eauto|]. rewrite Hy. left; reflexivity. }
  destruct Hlt as [Hlt|[<- Hij]].
  - eapply precedes_flat_map; [apply precedes_seq with (i := k) (j := k'); lia|exact Hxk|exact Hyk].
  - eapply precedes_in_flat_map; [apply in_seq with (start := 0) (len := list_max (map (@length A) ls)) (n := k); lia|].
    eapply precedes_flat_map; [eapply precedes_nth; [exact Hi|exact Hj|exact Hij]| |].
    + rewrite Hx. left; reflexivity.
    + rewrite Hy. left; reflexivity.
Qed.

(** leaves of an entry in the block of its first repeat index *)
Lemma in_nest_block e ci k : In ci (einds e) -> first_repeat e ci k ->
  exists blk, nth_error (entry_indices_nest (e_name e) (e_dims e) (ch e)) (Z.to_nat k) = Some blk /\ In ci blk /\ (0 <= k)%Z.
Proof.
  intros Hin Hf. apply in_einds in Hin as (idx & c & -> & Hd & Hc). unfold first_repeat in Hf.
  unfold entry_indices_nest, listindices_nest.
  destruct (e_dims e) as [|d dims].
  - inversion Hd; subst. destruct Hf as (-> & _). eexists. split; [reflexivity|]. split; [|lia].
    cut (In (KS (e_name e) :: c) (flat_map (fun i => map (fun c => [KS (e_name e)] ++ i ++ c) (ch e)) [[]])).
    { intros H. rewrite <- (combine3 [KS (e_name e)] [[]] (ch e)) in H. exact H. }
    simpl. rewrite app_nil_r. apply in_map_iff. exists c. auto.
  - inversion Hd as [|i d' idx' dims' Hi Hd']; subst. destruct Hf as (c0 & E). injection E as -> _.
    rewrite map_map.
    exists (combine_ [[[KS (e_name e)]]; combine_ [[[KI k]]; listindices dims]; ch e]).
    split; [|split; [|lia]].
    + assert (Hn : nth_error (pyrange d) (Z.to_nat k) = Some k).
      { unfold pyrange. replace k with (Z.of_nat (Z.to_nat k)) at 2 by lia.
        apply map_nth_error. rewrite nth_error_nth' with (d := 0); [|rewrite seq_length; lia].
        rewrite seq_nth by lia. reflexivity. }
      exact (map_nth_error (fun x => combine_ [[[KS (e_name e)]]; combine_ [[[KI x]]; listindices dims]; ch e]) _ _ Hn).
    + cut (In (KS (e_name e) :: map KI (k :: idx') ++ c)
             (flat_map (fun i => map (fun c => [KS (e_name e)] ++ i ++ c) (ch e)) (map (fun c => [KI k] ++ c) (listindices dims)))).
      { intros H. rewrite <- (combine3 [KS (e_name e)]), <- (combine2_one [KI k]) in H. exact H. }
      apply in_flat_map. exists (KI k :: map KI idx'). split.
      * apply in_map_iff. exists (map KI idx'). split; [reflexivity|]. apply in_listindices; eauto.
      * apply in_map_iff. exists c. auto.
Qed.

(** [x] is an index of [s] whose first name is that of [e] *)
Lemma leaf_of_entry es order e ci : Wf (mkStruct es order) -> In e es ->
  In ci (leaves (mkStruct es order)) -> (exists c, ci = KS (e_name e) :: c) -> In ci (einds e).
Proof.
  intros Hw He Hin (c & Hc). inversion Hw as [es0 o0 Hnd Hp Hsp Hsub]; subst es0 o0.
  apply (Permutation_in _ (leaves_perm es order Hnd Hp)) in Hin. apply in_flat_map in Hin as (e' & He' & Hin).
  assert (e' = e); [|subst; exact Hin].
  apply in_einds in Hin as (idx & c' & E & _). rewrite Hc in E. injection E as E _. eapply name_inj; eauto.
Qed.

Lemma first_repeat_name e ci k : first_repeat e ci k -> exists c, ci = KS (e_name e) :: c.
Proof.
  unfold first_repeat. destruct (e_dims e); [intros (_ & H); exact H|].
  intros (c & ->). eauto.
Qed.

(** Inside a group the blocks come round-robin. *)
Lemma group_order s ns j j' e e' ci ci' k k' :
  Wf s -> In (OGroup ns) (s_order s) ->
  In e (s_entries s) -> In e' (s_entries s) ->
  nth_error ns j = Some (e_name e) -> nth_error ns j' = Some (e_name e') ->
  In ci (traverseCanonicalIndex s) -> In ci' (traverseCanonicalIndex s) ->
  first_repeat e ci k -> first_repeat e' ci' k' ->
  ((k < k')%Z \/ (k = k' /\ j < j')) ->
  precedes (traverseCanonicalIndex s) ci ci'.
Proof.
  rewrite traverse_leaves. intros Hw Ho He He' Hj Hj' Hci Hci' Hf Hf' Hlt.
  destruct s as [es order]. simpl in *. inversion Hw as [es0 o0 Hnd Hp Hsp Hsub]; subst es0 o0.
  assert (Hi : In ci (einds e)) by (eapply leaf_of_entry; eauto; eapply first_repeat_name; eauto).
  assert (Hi' : In ci' (einds e')) by (eapply leaf_of_entry; eauto; eapply first_repeat_name; eauto).
  apply in_nest_block with (k := k) in Hi as (blk & Hb & Hin & Hk); [|exact Hf].
  apply in_nest_block with (k := k') in Hi' as (blk' & Hb' & Hin' & Hk'); [|exact Hf'].
  rewrite leaves_eq. unfold order_indices. set (d := pydict _).
  assert (Hg : forall x, In x es -> dict_get (e_name x) d = Some (e_dims x, ch x)).
  { intros x Hx. unfold d. apply dict_get_pydict.
    - rewrite map_map. exact Hnd.
    - apply in_map_iff. exists x. auto. }
  eapply precedes_in_flat_map; [exact Ho|]. cbv beta iota.
  rewrite <- (map_id (intersperse _)), <- flat_map_concat_map, intersperse_spec.
  match goal with |- context [map ?f ns] => set (F := f) end.
  eapply precedes_flat_map with (a := blk) (b := blk'); [|exact Hin|exact Hin'].
  apply precedes_round_robin with (i := j) (j := j') (k := Z.to_nat k) (k' := Z.to_nat k') (li := F (e_name e)) (lj := F (e_name e')).
  - now apply map_nth_error.
  - now apply map_nth_error.
  - unfold F. rewrite (Hg e He). exact Hb.
  - unfold F. rewrite (Hg e' He'). exact Hb'.
  - destruct Hlt as [Hlt|[-> Hlt]]; [left; lia|right; auto].
Qed.

(** Different elements of the order come one after the other. *)
Lemma order_order s o o' e e' ci ci' :
  Wf s -> precedes (s_order s) o o' ->
  In e (s_entries s) -> In e' (s_entries s) ->
  In (e_name e) (oelem_names o) -> In (e_name e') (oelem_names o') ->
  In ci (traverseCanonicalIndex s) -> In ci' (traverseCanonicalIndex s) ->
  (exists c, ci = KS (e_name e) :: c) -> (exists c, ci' = KS (e_name e') :: c) ->
  precedes (traverseCanonicalIndex s) ci ci'.
Proof.
  rewrite traverse_leaves. intros Hw Ho He He' Hn Hn' Hci Hci' Hf Hf'.
  destruct s as [es order]. simpl in *. inversion Hw as [es0 o0 Hnd Hp Hsp Hsub]; subst es0 o0.
  assert (Hi : In ci (einds e)) by (eapply leaf_of_entry; eauto).
  assert (Hi' : In ci' (einds e')) by (eapply leaf_of_entry; eauto).
  rewrite leaves_eq. unfold order_indices. set (d := pydict _).
  assert (Hg : forall x, In x es -> dict_get (e_name x) d = Some (e_dims x, ch x)).
  { intros x Hx. unfold d. apply dict_get_pydict.
    - rewrite map_map. exact Hnd.
    - apply in_map_iff. exists x. auto. }
  assert (Hin : forall x o c, In x es -> In c (einds x) -> In (e_name x) (oelem_names o) ->
    In c match o with
    | OName n => entry_indices n (fst match dict_get n d with Some x => x | None => ([0%Z], []) end) (snd match dict_get n d with Some x => x | None => ([0%Z], []) end)
    | OGroup ns => concat (intersperse (map (fun n => entry_indices_nest n (fst match dict_get n d with Some x => x | None => ([0%Z], []) end) (snd match dict_get n d with Some x => x | None => ([0%Z], []) end)) ns))
    end).
  { intros x q c Hx Hc Hq. destruct q as [n|ns]; simpl in Hq.
    - destruct Hq as [->|[]]. rewrite (Hg x Hx). exact Hc.
    - eapply Permutation_in; [symmetry; apply Permutation_concat, intersperse_perm|].
      unfold einds in Hc. rewrite <- concat_entry_indices_nest in Hc. apply in_concat in Hc as (b & Hb & Hc).
      apply in_concat. exists b. split; [|exact Hc]. apply in_concat.
      eexists. split; [apply in_map; exact Hq|]. cbv beta. rewrite (Hg x Hx). exact Hb. }
  eapply precedes_flat_map; [exact Ho|exact (Hin e o ci He Hi Hn)|exact (Hin e' o' ci' He' Hi' Hn')].
Qed.

(** ** The look-up table *)

Lemma combine_seq_nth {A} (l : list A) k j : 
  nth_error (List.combine (seq k (length l)) l) j = match nth_error l j with Some p => Some (k + j, p) | None => None end.
Proof.
  revert k j; induction l as [|p l IH]; intros k [|j]; simpl; try reflexivity.
  - now rewrite Nat.add_0_r.
  - rewrite IH. destruct (nth_error l j); [|reflexivity]. do 2 f_equal. lia.
Qed.

Lemma lut_length s : forall l k, length (lut_of (layout s k l)) = tot s l.
Proof.
  unfold tot, lut_of. induction l as [|i l IH]; intros k; simpl; [reflexivity|].
  rewrite app_length, IH, map_length, combine_length, seq_length. unfold sp_nnz. lia.
Qed.

Lemma nth_error_map_ {A B} (f : A -> B) l n : nth_error (map f l) n = match nth_error l n with Some a => Some (f a) | None => None end.
Proof. revert n; induction l as [|a l IH]; intros [|n]; simpl; auto. Qed.

Lemma lut_nth s : forall l k j, j < tot s l ->
  exists ci kk r c, nth_error (lut_of (layout s k l)) j = Some (ci, kk, (c, r)) /\
    exists m, In (ci, m) (layout s k l) /\ nth_error (dm_nz m) kk = Some (k + j) /\
              nth_error (sp_pat (dm_sp m)) kk = Some (r, c).
Proof.
  unfold tot. induction l as [|i l IH]; intros k j Hj; simpl in Hj; [lia|].
  unfold lut_of. cbn [layout flat_map]. cbn [fst snd dm_sp].
  set (sp := leaf_sp s i) in *.
  destruct (Nat.lt_ge_cases j (sp_nnz sp)) as [Hlt|Hge].
  - rewrite nth_error_app1 by (rewrite map_length, combine_length, seq_length; unfold sp_nnz in *; lia).
    rewrite nth_error_map_. unfold sp_nnz at 1. rewrite combine_seq_nth.
    destruct (nth_error (sp_pat sp) j) as [[r c]|] eqn:E.
    2:{ apply nth_error_None in E. unfold sp_nnz in *; lia. }
    exists i, j, r, c. split; [reflexivity|].
    eexists. split; [left; reflexivity|]. cbn [dm_nz dm_sp]. split; [|exact E].
    rewrite nth_error_nth' with (d := 0); [|rewrite seq_length; lia]. now rewrite seq_nth.
  - assert (Hlen : length (map (fun kp : nat * (nat * nat) => (i, fst kp, (snd (snd kp), fst (snd kp)))) (List.combine (seq 0 (sp_nnz sp)) (sp_pat sp))) = sp_nnz sp).
    { rewrite map_length, combine_length, seq_length. unfold sp_nnz; lia. }
    rewrite nth_error_app2 by (rewrite Hlen; lia). rewrite Hlen.
    destruct (IH (k + sp_nnz sp) (j - sp_nnz sp)) as (ci & kk & r & c & Hn & m & Hm & Hnz & Hpat); [lia|].
    exists ci, kk, r, c. split; [exact Hn|]. exists m. split; [right; exact Hm|]. split; [|exact Hpat].
    rewrite Hnz. f_equal. lia.
Qed.

Lemma map_of_get s c ci m : Wf s -> casadi_structure s = Ok c -> In (ci, m) (map_of s) -> cmap_get ci (cs_map c) = Some m.
Proof.
  intros Hw Hc Hin. assert (Hl : In ci (leaves s)) by exact (in_layout_keys s 0 (leaves s) (ci, m) Hin).
  apply in_split in Hl as (l1 & l2 & Hs). rewrite (map_leaf s c l1 ci l2 Hw Hc Hs).
  f_equal. unfold map_of in Hin. rewrite Hs, layout_app in Hin. simpl in Hin.
  pose proof (NoDup_leaves s Hw) as Hnd. rewrite Hs in Hnd. apply NoDup_remove_2 in Hnd.
  apply in_app_or in Hin as [Hin|[Hin|Hin]].
  - exfalso. apply Hnd, in_or_app. left. exact (in_layout_keys _ _ _ _ Hin).
  - injection Hin as <-. reflexivity.
  - exfalso. apply Hnd, in_or_app. right. exact (in_layout_keys _ _ _ _ Hin).
Qed.

Lemma leaf_sp_e s ci e : Wf s -> Leaf s ci e -> leaf_sp s ci = e_sp e.
Proof. intros Hw Hl. unfold leaf_sp. now rewrite (Leaf_get s ci e Hw Hl). Qed.

Lemma getCanonicalIndex_spec s c i mode : Wf s -> casadi_structure s = Ok c ->
  (0 <= i < Z.of_nat (cs_size c))%Z ->
  exists can k row col m e,
    Leaf s can e /\ cmap_get can (cs_map c) = Some m /\ dm_sp m = e_sp e /\
    nth_error (dm_nz m) k = Some (Z.to_nat i) /\
    nth_error (sp_pat (dm_sp m)) k = Some (row, col) /\
    getCanonicalIndex c i mode = Ok (if (mode =? 0)%Z then can else if (mode =? 1)%Z then can ++ [KI (Z.of_nat k)]
                                     else can ++ [KI (Z.of_nat col); KI (Z.of_nat row)]).
Proof.
  intros Hw Hc Hi. destruct (casadi_structure_ok s Hw) as (c' & Hc' & _ & Hs & Hlut & _).
  rewrite Hc in Hc'. injection Hc' as <-.
  destruct (lut_nth s (leaves s) 0 (Z.to_nat i)) as (ci & kk & r & col & Hn & m & Hm & Hnz & Hpat); [lia|].
  assert (Hl : In ci (leaves s)) by exact (in_layout_keys s 0 (leaves s) (ci, m) Hm).
  pose proof (map_of_get s c ci m Hw Hc Hm) as Hget.
  apply in_split in Hl as Hl'. destruct Hl' as (l1 & l2 & Hsp). rewrite (map_leaf s c l1 ci l2 Hw Hc Hsp) in Hget.
  apply in_leaves in Hl as (e & Hl); [|exact Hw].
  exists ci, kk, r, col, m, e. repeat split; auto.
  - rewrite (map_leaf s c l1 ci l2 Hw Hc Hsp). exact Hget.
  - injection Hget as <-. cbn [dm_sp]. now apply leaf_sp_e.
  - unfold getCanonicalIndex. destruct ((i <? 0) || (Z.of_nat (cs_size c) <=? i))%Z eqn:E.
    { apply orb_true_iff in E. lia. }
    rewrite Hlut. unfold map_of. rewrite Hn. simpl.
    destruct (mode =? 0)%Z; [reflexivity|]. destruct (mode =? 1)%Z; reflexivity.
Qed.

Lemma getCanonicalIndex_err c i mode : ~ (0 <= i < Z.of_nat (cs_size c))%Z -> getCanonicalIndex c i mode = Err EException.
Proof.
  intros Hi. unfold getCanonicalIndex. destruct ((i <? 0) || (Z.of_nat (cs_size c) <=? i))%Z eqn:E; [reflexivity|].
  apply orb_false_iff in E. lia.
Qed.

Lemma SpOk_NoDup sp : SpOk sp -> NoDup (sp_pat sp).
Proof.
  intros [Hs _]. induction Hs as [|p l Hs IH Hf]; constructor; auto.
  intros Hin. rewrite Forall_forall in Hf. specialize (Hf p Hin). unfold pos_lt in Hf. lia.
Qed.

Lemma Leaf_SpOk s ci e : Wf s -> Leaf s ci e -> SpOk (e_sp e).
Proof.
  intros Hw Hl. revert Hw. induction Hl as [s e idx He Es Hd|s e idx s' c e' He Es Hd Hl IH]; intros Hw;
  destruct Hw as [es order Hnd Hp Hsp Hsub]; simpl in He; eauto.
Qed.

Lemma getCanonicalIndex_inj s c i j mode r : Wf s -> casadi_structure s = Ok c -> mode <> 0%Z ->
  getCanonicalIndex c i mode = Ok r -> getCanonicalIndex c j mode = Ok r -> i = j.
Proof.
  intros Hw Hc Hm Hi Hj.
  assert (Ri : (0 <= i < Z.of_nat (cs_size c))%Z).
  { destruct (Z_lt_dec i 0); [|destruct (Z_lt_dec i (Z.of_nat (cs_size c)))]; try lia;
    rewrite getCanonicalIndex_err in Hi by lia; discriminate. }
  assert (Rj : (0 <= j < Z.of_nat (cs_size c))%Z).
  { destruct (Z_lt_dec j 0); [|destruct (Z_lt_dec j (Z.of_nat (cs_size c)))]; try lia;
    rewrite getCanonicalIndex_err in Hj by lia; discriminate. }
  destruct (getCanonicalIndex_spec s c i mode Hw Hc Ri) as (a & k & r1 & c1 & m & e & Hl & Hg & Hsp & Hnz & Hpat & Hr).
  destruct (getCanonicalIndex_spec s c j mode Hw Hc Rj) as (a' & k' & r1' & c1' & m' & e' & Hl' & Hg' & Hsp' & Hnz' & Hpat' & Hr').
  rewrite Hi in Hr. rewrite Hj in Hr'. injection Hr as Hr. injection Hr' as Hr'. rewrite Hr in Hr'.
  destruct (mode =? 0)%Z eqn:E0; [apply Z.eqb_eq in E0; contradiction|].
  destruct (mode =? 1)%Z.
  - apply app_inj_tail in Hr' as [<- Hk]. injection Hk as Hk. assert (k = k') by lia. subst k'.
    rewrite Hg in Hg'. injection Hg' as <-. rewrite Hnz in Hnz'. injection Hnz' as Hnz'. lia.
  - change [KI (Z.of_nat c1); KI (Z.of_nat r1)] with ([KI (Z.of_nat c1)] ++ [KI (Z.of_nat r1)]) in Hr'.
    change [KI (Z.of_nat c1'); KI (Z.of_nat r1')] with ([KI (Z.of_nat c1')] ++ [KI (Z.of_nat r1')]) in Hr'.
    rewrite !app_assoc in Hr'. apply app_inj_tail in Hr' as [Hr' Hrow]. apply app_inj_tail in Hr' as [<- Hcol].
    injection Hrow as Hrow. injection Hcol as Hcol.
    assert (r1 = r1' /\ c1 = c1') as [<- <-] by lia.
    rewrite Hg in Hg'. injection Hg' as <-.
    assert (k = k').
    { eapply NoDup_nth_error; [|apply nth_error_Some; rewrite Hpat; discriminate|now rewrite Hpat, Hpat'].
      rewrite Hsp. apply SpOk_NoDup. eapply Leaf_SpOk; eauto. }
    subst k'. rewrite Hnz in Hnz'. injection Hnz' as Hnz'. lia.
Qed.

(** ** Property statements *)

Lemma nth_error_Some_lt_ {A} (l : list A) n a : nth_error l n = Some a -> n < length l.
Proof. intros H. apply nth_error_Some. congruence. Qed.

Lemma flat_map_NoDup_inj {A B} (f : A -> list B) l a a' b :
  NoDup (flat_map f l) -> a <> a' -> In a l -> In a' l -> In b (f a) -> In b (f a') -> False.
Proof.
  induction l as [|x l IH]; simpl; intros Hnd Hne Ha Ha' Hb Hb'; [contradiction|].
  apply NoDup_app_disj in Hnd as [Hd Hnd].
  destruct Ha as [->|Ha], Ha' as [->|Ha'].
  - congruence.
  - apply (Hd b Hb). apply in_flat_map; eauto.
  - apply (Hd b Hb'). apply in_flat_map; eauto.
  - eapply IH; eauto.
Qed.

Lemma flat_partition s c : Wf s -> casadi_structure s = Ok c ->
  flat_map (fun ci => match cmap_get ci (cs_map c) with Some m => dm_nz m | None => [] end)
           (traverseCanonicalIndex s) = seq 0 (cs_size c).
Proof.
  intros Hw Hc. rewrite traverse_leaves.
  destruct (casadi_structure_ok s Hw) as (c' & Hc' & _ & Hs & _ & _). rewrite Hc in Hc'. injection Hc' as <-.
  rewrite Hs. rewrite <- (layout_nz s (leaves s) 0). fold (map_of s).
  replace (leaves s) with (map fst (map_of s)) by apply layout_keys.
  rewrite flat_map_concat_map, map_map, flat_map_concat_map. f_equal. apply map_ext_in.
  intros [ci m] Hin. simpl. now rewrite (map_of_get s c ci m Hw Hc Hin).
Qed.

Lemma canonical_leaves s : Wf s ->
  NoDup (traverseCanonicalIndex s) /\ forall ci, In ci (traverseCanonicalIndex s) <-> exists e, Leaf s ci e.
Proof. rewrite traverse_leaves. intros Hw. split; [now apply NoDup_leaves|]. intros; now apply in_leaves. Qed.

Lemma rmapM_Ok {A B} (f : A -> res B) l l' : rmapM f l = Ok l' <-> Forall2 (fun a b => f a = Ok b) l l'.
Proof.
  revert l'; induction l as [|a l IH]; intros l'; simpl.
  - split; [intros [= <-]; constructor|inversion 1; reflexivity].
  - destruct (f a) as [b|e] eqn:E; simpl.
    + destruct (rmapM f l) as [bs|e'] eqn:E'; simpl.
      * split; [intros [= <-]; constructor; [exact E|now apply IH]|].
        inversion 1 as [|? ? ? ? Hb Hl]; subst. apply IH in Hl. congruence.
      * split; [discriminate|]. inversion 1 as [|? ? ? ? Hb Hl]; subst. apply IH in Hl. discriminate.
    + split; [discriminate|]. inversion 1; congruence.
Qed.

Lemma rmapM_total {A B} (f : A -> res B) l : (forall a, In a l -> exists b, f a = Ok b) -> exists l', rmapM f l = Ok l'.
Proof.
  induction l as [|a l IH]; intros H; simpl; [eauto|].
  destruct (H a (or_introl eq_refl)) as (b & ->). destruct IH as (l' & ->); [intros; apply H; now right|].
  simpl; eauto.
Qed.

Lemma canonicalIndices_leaves s c : Wf s -> casadi_structure s = Ok c ->
  exists l, canonicalIndices c 0 = Ok l /\ length l = cs_size c /\
    forall ci, In ci l <-> exists e, Leaf s ci e /\ 0 < sp_nnz (e_sp e).
Proof.
  intros Hw Hc. unfold canonicalIndices.
  destruct (rmapM_total (fun i => getCanonicalIndex c i 0) (pyrange (Z.of_nat (cs_size c)))) as (l & Hl).
  { intros i Hi. apply in_pyrange in Hi.
    destruct (getCanonicalIndex_spec s c i 0 Hw Hc Hi) as (can & k & r & co & m & e & _ & _ & _ & _ & _ & H). eauto. }
  exists l. split; [exact Hl|]. apply rmapM_Ok in Hl. split.
  { rewrite <- (Forall2_len _ _ _ Hl), pyrange_length. lia. }
  intros ci. split.
  - intros Hin. destruct (Forall2_In_r _ _ _ _ Hl Hin) as (i & Hi & Hg). apply in_pyrange in Hi.
    destruct (getCanonicalIndex_spec s c i 0 Hw Hc Hi) as (can & k & r & co & m & e & HL & _ & Hsp & _ & Hpat & H).
    rewrite Hg in H. injection H as ->. exists e. split; [exact HL|].
    rewrite <- Hsp. unfold sp_nnz. apply nth_error_Some_lt_ in Hpat. lia.
  - intros (e & HL & Hnz).
    assert (Hin : In ci (leaves s)) by (apply in_leaves; eauto).
    apply in_split in Hin as (l1 & l2 & Hs).
    pose proof (map_leaf s c l1 ci l2 Hw Hc Hs) as Hg. rewrite (leaf_sp_e s ci e Hw HL) in Hg.
    set (i := Z.of_nat (tot s l1)).
    destruct (casadi_structure_ok s Hw) as (c' & Hc' & _ & Hsz & _ & _). rewrite Hc in Hc'. injection Hc' as <-.
    assert (Hi : (0 <= i < Z.of_nat (cs_size c))%Z).
    { unfold i. rewrite Hsz, Hs. unfold tot. rewrite map_app, list_sum_app. simpl.
      rewrite (leaf_sp_e s ci e Hw HL). lia. }
    destruct (getCanonicalIndex_spec s c i 0 Hw Hc Hi) as (can & k & r & co & m & e' & HL' & Hg' & Hsp & Hk & Hpat & H).
    assert (can = ci).
    { (* the flat index belongs to one leaf only *)
      destruct (cidx_eq_dec can ci) as [|Hneq]; [assumption|exfalso].
      assert (Hin' : In can (leaves s)) by (apply in_leaves; eauto).
      pose proof (flat_partition s c Hw Hc) as Hfp. rewrite traverse_leaves in Hfp.
      pose proof (seq_NoDup (cs_size c) 0) as Hnd. rewrite <- Hfp in Hnd.
      apply (flat_map_NoDup_inj _ _ can ci (Z.to_nat i) Hnd Hneq Hin').
      - rewrite Hs. apply in_or_app; right; left; reflexivity.
      - rewrite Hg'. eapply nth_error_In; eauto.
      - rewrite Hg. unfold i. simpl. rewrite Nat2Z.id. apply in_seq. lia. }
    subst can. simpl in H.
    destruct (Forall2_In_l _ _ _ i Hl) as (b & Hb & Hgb); [now apply in_pyrange|].
    rewrite H in Hgb. injection Hgb as <-. exact Hb.
Qed.
