From Coq Require Import Permutation Sorted.
From Verif Require Import PyBase IndexModel DMModel StructModel StructSpec IndexProofs.

(** ** Induction over nested structures *)

Section StructInd.
Variable P : structure -> Prop.
Hypothesis H : forall es order,
  (forall e s', In e es -> e_struct e = Some s' -> P s') ->
  (forall e l s', In e es -> e_shape e = Some l -> In (SDS s') l -> P s') ->
  P (mkStruct es order).

Fixpoint structure_ind2 (s : structure) : P s.
Proof.
  destruct s as [es order]. apply H.
  - induction es as [|[nm dims st sp sy orig sh] es IH]; intros e s' Hin Hs.
    + destruct Hin.
    + destruct Hin as [<-|Hin].
      * simpl in Hs. destruct st as [s0|]; [|discriminate]. injection Hs as <-. apply structure_ind2.
      * eapply IH; eauto.
  - induction es as [|[nm dims st sp sy orig sh] es IH]; intros e l s' Hin Hs Hl.
    + destruct Hin.
    + destruct Hin as [<-|Hin].
      * simpl in Hs. destruct sh as [l0|]; [|discriminate]. injection Hs as <-.
        induction l0 as [|d l0 IHl]; [destruct Hl|].
        destruct d as [s0|n0].
        -- destruct Hl as [Hl|Hl]; [injection Hl as <-; apply structure_ind2|apply IHl; exact Hl].
        -- destruct Hl as [Hl|Hl]; [discriminate|apply IHl; exact Hl].
      * eapply IH; eauto.
Defined.
End StructInd.

(** ** Dictionaries *)

Lemma dict_get_set_same {V} k (v : V) d : dict_get k (dict_set k v d) = Some v.
Proof.
  induction d as [|[k' v'] d IH]; simpl; [now rewrite String.eqb_refl|].
  destruct (String.eqb k k') eqn:E; simpl; rewrite E; auto.
Qed.

Lemma dict_get_set_other {V} k k2 (v : V) d : k <> k2 -> dict_get k2 (dict_set k v d) = dict_get k2 d.
Proof.
  intros Hn. induction d as [|[k' v'] d IH]; simpl.
  - destruct (String.eqb_spec k2 k); congruence.
  - destruct (String.eqb_spec k k') as [->|Hk]; simpl.
    + destruct (String.eqb_spec k2 k'); congruence.
    + destruct (String.eqb k2 k'); auto.
Qed.

Lemma dict_get_fold {V} (l : list (string * V)) : forall d n v,
  NoDup (map fst l) ->
  dict_get n (fold_left (fun d kv => dict_set (fst kv) (snd kv) d) l d) = Some v <->
  (In (n, v) l \/ (~ In n (map fst l) /\ dict_get n d = Some v)).
Proof.
  induction l as [|[k w] l IH]; intros d n v Hnd; simpl.
  - split; [intros Hg; right; split; [tauto|exact Hg]|intros [[]|[_ Hg]]; exact Hg].
  - inversion Hnd as [|? ? Hni Hnd']; subst. rewrite IH by assumption.
    destruct (String.eqb_spec k n) as [->|Hk].
    + rewrite dict_get_set_same. split.
      * intros [Hin|[Hn Hv]]; [left; right; exact Hin|]. injection Hv as ->. left; left; reflexivity.
      * intros [[Heq|Hin]|[Hn _]].
        -- injection Heq as ->. right; split; [exact Hni|reflexivity].
        -- left; exact Hin.
        -- exfalso; apply Hn; left; reflexivity.
    + rewrite dict_get_set_other by assumption. split.
      * intros [Hin|[Hn Hv]]; [left; right; exact Hin|]. right; split; [intros [->|Hx]; tauto|exact Hv].
      * intros [[Heq|Hin]|[Hn Hv]]; [injection Heq as -> ->; congruence|left; exact Hin|].
        right; split; [tauto|exact Hv].
Qed.

Lemma dict_get_pydict {V} (l : list (string * V)) n v :
  NoDup (map fst l) -> dict_get n (pydict l) = Some v <-> In (n, v) l.
Proof.
  intros Hnd. unfold pydict. rewrite dict_get_fold by assumption. simpl. split; [|tauto].
  intros [Hin|[_ Hv]]; [exact Hin|discriminate].
Qed.

Lemma dict_get_pydict_None {V} (l : list (string * V)) n :
  NoDup (map fst l) -> dict_get n (pydict l) = None <-> ~ In n (map fst l).
Proof.
  intros Hnd. split.
  - intros Hg Hin. apply in_map_iff in Hin as [[k v] [Hk Hin]]. simpl in Hk. subst k.
    apply (dict_get_pydict l n v Hnd) in Hin. congruence.
  - intros Hn. destruct (dict_get n (pydict l)) as [v|] eqn:E; [|reflexivity].
    apply (dict_get_pydict l n v Hnd) in E. exfalso; apply Hn. apply in_map_iff. exists (n, v). auto.
Qed.

Lemma NoDup_app_intro_ {A} (l l' : list A) :
  NoDup l -> NoDup l' -> (forall a, In a l -> In a l' -> False) -> NoDup (l ++ l').
Proof.
  induction l as [|a l IH]; intros H1 H2 H3; simpl; [assumption|].
  inversion H1; subst. constructor.
  - rewrite in_app_iff. intros [Hi|Hi]; [contradiction|]. eapply H3; [left; reflexivity|exact Hi].
  - apply IH; auto. intros b Hb Hb'. eapply H3; [right; exact Hb|exact Hb'].
Qed.

(** ** Products of index lists *)

Lemma combine3 {A} (a : list A) L C :
  combine_ [[a]; L; C] = flat_map (fun i => map (fun c => a ++ i ++ c) C) L.
Proof.
  simpl. rewrite app_nil_r.
  rewrite flat_map_concat_map, (flat_map_concat_map _ L), concat_map, map_map.
  rewrite <- !flat_map_concat_map. apply flat_map_ext. intros i.
  rewrite map_map, flat_map_concat_map.
  induction C as [|c C IH]; simpl; [reflexivity|]. rewrite app_nil_r. f_equal. exact IH.
Qed.

Lemma combine2_one {A} (a : list A) L : combine_ [[a]; L] = map (fun c => a ++ c) L.
Proof.
  simpl. rewrite app_nil_r. rewrite flat_map_concat_map.
  induction L as [|c L IH]; simpl; [reflexivity|]. rewrite app_nil_r. f_equal. exact IH.
Qed.

Lemma listindices_cons d dims :
  listindices (d :: dims) = flat_map (fun i => map (fun c => KI i :: c) (listindices dims)) (pyrange d).
Proof.
  cbn [listindices combine_]. unfold lpack. rewrite map_map.
  rewrite (flat_map_concat_map _ (map _ _)), map_map, <- flat_map_concat_map.
  apply flat_map_ext. intros i.
  rewrite flat_map_concat_map.
  induction (listindices dims) as [|c L IH]; simpl; [reflexivity|]. rewrite app_nil_r. f_equal. exact IH.
Qed.

Lemma in_pyrange i n : In i (pyrange n) <-> (0 <= i < n)%Z.
Proof.
  unfold pyrange. rewrite in_map_iff. split.
  - intros (k & <- & Hk). apply in_seq in Hk. lia.
  - intros Hi. exists (Z.to_nat i). split; [lia|]. apply in_seq. lia.
Qed.

Lemma NoDup_pyrange n : NoDup (pyrange n).
Proof. unfold pyrange. apply FinFun.Injective_map_NoDup; [intros a b; lia|apply seq_NoDup]. Qed.

Lemma in_listindices ci dims :
  In ci (listindices dims) <-> exists idx, ci = map KI idx /\ InDims idx dims.
Proof.
  unfold InDims. revert ci. induction dims as [|d dims IH]; intros ci.
  - simpl. split.
    + intros [<-|[]]. exists []. split; [reflexivity|constructor].
    + intros (idx & -> & Hd). inversion Hd; subst. left; reflexivity.
  - rewrite listindices_cons, in_flat_map. split.
    + intros (i & Hi & Hc). apply in_map_iff in Hc as (c & <- & Hc).
      apply IH in Hc as (idx & -> & Hd). apply in_pyrange in Hi.
      exists (i :: idx). split; [reflexivity|constructor; assumption].
    + intros (idx & -> & Hd). inversion Hd as [|i d' idx' dims' Hi Hd']; subst.
      exists i. split; [now apply in_pyrange|]. simpl. apply in_map. apply IH. eauto.
Qed.

Lemma listindices_length ci dims : In ci (listindices dims) -> length ci = length dims.
Proof.
  intros Hin. apply in_listindices in Hin as (idx & -> & Hd). rewrite map_length. eapply Forall2_len, Hd.
Qed.

Lemma NoDup_flat_map {A B} (f : A -> list B) l :
  NoDup l -> (forall a, In a l -> NoDup (f a)) ->
  (forall a a' b, In a l -> In a' l -> In b (f a) -> In b (f a') -> a = a') ->
  NoDup (flat_map f l).
Proof.
  induction l as [|a l IH]; intros Hnd Hf Hd; simpl; [constructor|].
  inversion Hnd as [|? ? Hni Hnd']; subst.
  apply NoDup_app_intro_.
  - apply Hf; left; reflexivity.
  - apply IH; auto. + intros; apply Hf; right; assumption.
    + intros x x' b Hx Hx'; apply Hd; right; assumption.
  - intros b Hb Hb'. apply in_flat_map in Hb' as (a' & Ha' & Hb').
    assert (a = a') by (eapply Hd; eauto; [left|right]; auto). subst. contradiction.
Qed.

Lemma NoDup_map_inj {A B} (f : A -> B) l :
  (forall x y, In x l -> In y l -> f x = f y -> x = y) -> NoDup l -> NoDup (map f l).
Proof.
  induction l as [|a l IH]; intros Hi Hn; simpl; [constructor|].
  inversion Hn; subst. constructor.
  - intros Hin. apply in_map_iff in Hin as (b & Hb & Hin).
    assert (b = a) by (apply Hi; [right; assumption|left; reflexivity|assumption]). subst; contradiction.
  - apply IH; auto. intros x y Hx Hy; apply Hi; right; assumption.
Qed.

Lemma NoDup_listindices dims : NoDup (listindices dims).
Proof.
  induction dims as [|d dims IH]; [constructor; [intros []|constructor]|].
  rewrite listindices_cons. apply NoDup_flat_map.
  - apply NoDup_pyrange.
  - intros i _. apply NoDup_map_inj; [|assumption]. intros x y _ _ [=]; assumption.
  - intros a a' b _ _ Hb Hb'. apply in_map_iff in Hb as (c & <- & _). apply in_map_iff in Hb' as (c' & E & _).
    injection E as -> _. reflexivity.
Qed.

Lemma concat_listindices_nest dims : concat (listindices_nest dims) = listindices dims.
Proof.
  destruct dims as [|d dims]; [reflexivity|].
  rewrite listindices_cons, flat_map_concat_map. f_equal. unfold listindices_nest.
  apply map_ext. intros i. cbv beta. exact (combine2_one [KI i] (listindices dims)).
Qed.

Lemma entry_indices_eq name dims C :
  entry_indices name dims C = flat_map (fun i => map (fun c => KS name :: i ++ c) C) (listindices dims).
Proof. unfold entry_indices. exact (combine3 [KS name] (listindices dims) C). Qed.

Lemma flat_map_concat {A B} (f : A -> list B) (ls : list (list A)) :
  flat_map f (concat ls) = concat (map (flat_map f) ls).
Proof. induction ls as [|l ls IH]; simpl; [reflexivity|]. now rewrite flat_map_app, IH. Qed.

Lemma concat_entry_indices_nest name dims C :
  concat (entry_indices_nest name dims C) = entry_indices name dims C.
Proof.
  rewrite entry_indices_eq. unfold entry_indices_nest.
  rewrite <- concat_listindices_nest, flat_map_concat. f_equal. apply map_ext. intros i. exact (combine3 [KS name] i C).
Qed.

(** ** The traversal *)

Definition leaves (s : structure) : list cidx := s_traverse s 0.
Definition ch (e : entry) : list cidx := match e_struct e with None => [[]] | Some s' => leaves s' end.

Lemma s_traverse_even s : forall l, Z.even l = true -> s_traverse s l = leaves s.
Proof.
  induction s as [es order IH _] using structure_ind2. intros l Hl. unfold leaves. simpl.
  f_equal. f_equal. apply map_ext_in. intros e He. do 2 f_equal.
  destruct e as [nm dims st sp sy orig sh]. simpl. destruct st as [s'|]; [|reflexivity].
  destruct (l - 1 =? 0)%Z eqn:E; [exfalso|].
  { apply Z.eqb_eq in E. assert (l = 1)%Z by lia. subst. discriminate. }
  assert (Hev : Z.even (l - 1 - 1) = true).
  { replace (l - 1 - 1)%Z with (l - 2)%Z by lia. rewrite Z.even_sub. rewrite Hl. reflexivity. }
  rewrite (IH _ s' He eq_refl _ Hev). symmetry. apply (IH _ s' He eq_refl). reflexivity.
Qed.

Lemma traverse_leaves s : traverseCanonicalIndex s = leaves s.
Proof. now apply s_traverse_even. Qed.

Lemma leaves_eq es order :
  leaves (mkStruct es order) =
  order_indices (pydict (map (fun e => (e_name e, (e_dims e, ch e))) es)) order.
Proof.
  unfold leaves. cbn [s_traverse]. f_equal. f_equal. apply map_ext. intros e. do 2 f_equal.
  destruct e as [nm dims st sp sy orig sh]. simpl. unfold ch; simpl. destruct st as [s'|]; [|reflexivity].
  now apply s_traverse_even.
Qed.

Definition einds (e : entry) : list cidx := entry_indices (e_name e) (e_dims e) (ch e).

(** contribution of a name under a dictionary *)
Definition look_ind (d : list (string * (list Z * list cidx))) (n : string) : list cidx :=
  match dict_get n d with Some x => entry_indices n (fst x) (snd x) | None => [] end.

Lemma entry_indices_zero n C : entry_indices n [0%Z] C = [].
Proof. reflexivity. Qed.

Lemma Permutation_concat {A} (l l' : list (list A)) : Permutation l l' -> Permutation (concat l) (concat l').
Proof.
  induction 1 as [|x l l' _ IH|x y l|l l' l'' _ IH1 _ IH2]; simpl.
  - constructor.
  - now apply Permutation_app_head.
  - rewrite !app_assoc. apply Permutation_app_tail, Permutation_app_comm.
  - etransitivity; eauto.
Qed.

Lemma order_indices_perm d order :
  Permutation (order_indices d order) (flat_map (look_ind d) (flat_map oelem_names order)).
Proof.
  unfold order_indices. induction order as [|o order IH]; simpl; [constructor|].
  rewrite flat_map_app. apply Permutation_app; [|exact IH].
  destruct o as [n|ns]; cbn [oelem_names].
  - simpl. rewrite app_nil_r. unfold look_ind. destruct (dict_get n d); simpl; [apply Permutation_refl|].
    constructor.
  - etransitivity. { apply Permutation_concat, intersperse_perm. }
    induction ns as [|n ns IHn]; simpl; [constructor|].
    rewrite concat_app. apply Permutation_app; [|exact IHn].
    rewrite concat_entry_indices_nest. unfold look_ind. destruct (dict_get n d); [apply Permutation_refl|].
    constructor.
Qed.

Lemma flat_map_perm {A B} (f : A -> list B) l l' : Permutation l l' -> Permutation (flat_map f l) (flat_map f l').
Proof. intros H. rewrite !flat_map_concat_map. apply Permutation_concat, Permutation_map, H. Qed.

Lemma leaves_perm es order :
  NoDup (map e_name es) -> Permutation (flat_map oelem_names order) (map e_name es) ->
  Permutation (leaves (mkStruct es order)) (flat_map einds es).
Proof.
  intros Hnd Hp. rewrite leaves_eq, order_indices_perm, (flat_map_perm _ _ _ Hp).
  rewrite (flat_map_concat_map _ (map e_name es)), map_map, <- flat_map_concat_map.
  rewrite !flat_map_concat_map. erewrite map_ext_in; [apply Permutation_refl|].
  intros e He. cbn beta. unfold look_ind, einds.
  assert (Hg : dict_get (e_name e) (pydict (map (fun e => (e_name e, (e_dims e, ch e))) es)) = Some (e_dims e, ch e)).
  { apply dict_get_pydict.
    - rewrite map_map. exact Hnd.
    - apply in_map_iff. exists e. auto. }
  rewrite Hg. reflexivity.
Qed.

(** ** Leaves *)

Lemma in_einds ci e :
  In ci (einds e) <-> exists idx c, ci = KS (e_name e) :: map KI idx ++ c /\ InDims idx (e_dims e) /\ In c (ch e).
Proof.
  unfold einds. rewrite entry_indices_eq, in_flat_map. split.
  - intros (i & Hi & Hc). apply in_map_iff in Hc as (c & <- & Hc). apply in_listindices in Hi as (idx & -> & Hd). eauto.
  - intros (idx & c & -> & Hd & Hc). exists (map KI idx). split; [apply in_listindices; eauto|].
    apply in_map_iff. eauto.
Qed.

Lemma in_leaves s ci : Wf s -> In ci (leaves s) <-> exists e, Leaf s ci e.
Proof.
  intros Hw. revert ci. induction Hw as [es order Hnd Hp Hsp Hsub IH]; intros ci.
  assert (Hiff : In ci (leaves (mkStruct es order)) <-> In ci (flat_map einds es)).
  { pose proof (leaves_perm es order Hnd Hp) as Pm. split; apply Permutation_in; [exact Pm|symmetry; exact Pm]. }
  rewrite Hiff, in_flat_map. clear Hiff. split.
  - intros (e & He & Hc). apply in_einds in Hc as (idx & c & -> & Hd & Hc).
    unfold ch in Hc. destruct (e_struct e) as [s'|] eqn:Es.
    + apply (IH e s' He Es) in Hc as (e' & Hl). exists e'. eapply Leaf_sub; eauto.
    + destruct Hc as [<-|[]]. rewrite app_nil_r. exists e. apply Leaf_prim; auto.
  - intros (e & Hl). inversion Hl as [s0 e0 idx He Es Hd|s0 e0 idx s' c e' He Es Hd Hl']; subst.
    + exists e. split; [exact He|]. apply in_einds. exists idx, []. rewrite app_nil_r.
      repeat split; auto. unfold ch. rewrite Es. left; reflexivity.
    + exists e0. split; [exact He|]. apply in_einds. exists idx, c. repeat split; auto.
      unfold ch. rewrite Es. apply (IH e0 s' He Es). eauto.
Qed.

(** a non-empty canonical index of a structure begins with a name *)
Definition starts_name (ci : cidx) : Prop := exists n r, ci = KS n :: r.

Lemma Leaf_starts s ci e : Leaf s ci e -> starts_name ci.
Proof. destruct 1; eexists; eexists; reflexivity. Qed.

Lemma map_KI_app_inv idx idx' r r' :
  map KI idx ++ r = map KI idx' ++ r' -> length idx = length idx' -> idx = idx' /\ r = r'.
Proof.
  revert idx'; induction idx as [|i idx IH]; intros [|i' idx'] E Hl; simpl in *; try discriminate.
  - auto.
  - injection E as -> E. injection Hl as Hl. destruct (IH _ E Hl). subst; auto.
Qed.

(** also without knowing the lengths, when the rests begin with names (or are empty) *)
Lemma map_KI_app_inv2 idx idx' r r' :
  (r = [] \/ starts_name r) -> (r' = [] \/ starts_name r') ->
  map KI idx ++ r = map KI idx' ++ r' -> idx = idx' /\ r = r'.
Proof.
  intros Hr Hr'. revert idx'; induction idx as [|i idx IH]; intros [|i' idx'] E; simpl in *.
  - auto.
  - subst r. destruct Hr as [Hr|(n & q & Hr)]; discriminate.
  - subst r'. destruct Hr' as [Hr'|(n & q & Hr')]; discriminate.
  - injection E as -> E. destruct (IH _ E). subst; auto.
Qed.

Lemma name_inj es e e' : NoDup (map e_name es) -> In e es -> In e' es -> e_name e = e_name e' -> e = e'.
Proof.
  induction es as [|x es IH]; intros Hnd He He' Hn; [destruct He|].
  inversion Hnd as [|? ? Hni Hnd']; subst. destruct He as [->|He], He' as [->|He']; auto.
  - exfalso; apply Hni. rewrite Hn. now apply in_map.
  - exfalso; apply Hni. rewrite <- Hn. now apply in_map.
Qed.

Lemma NoDup_leaves s : Wf s -> NoDup (leaves s).
Proof.
  intros Hw. induction Hw as [es order Hnd Hp Hsp Hsub IH].
  eapply Permutation_NoDup; [symmetry; apply leaves_perm; assumption|].
  apply NoDup_flat_map.
  - eapply NoDup_map_inv, Hnd.
  - intros e He. unfold einds. rewrite entry_indices_eq. apply NoDup_flat_map.
    + apply NoDup_listindices.
    + intros i _. apply NoDup_map_inj.
      * intros x y _ _ [= E]. eapply app_inv_head, E.
      * unfold ch. destruct (e_struct e) as [s'|] eqn:Es; [eapply IH; eauto|].
        constructor; [intros []|constructor].
    + intros a a' b Ha Ha' Hb Hb'.
      apply in_map_iff in Hb as (c & <- & _). apply in_map_iff in Hb' as (c' & E & _).
      injection E as E. apply in_listindices in Ha as (idx & -> & Hd). apply in_listindices in Ha' as (idx' & -> & Hd').
      apply map_KI_app_inv in E as [-> _]; [reflexivity|]. apply Forall2_len in Hd, Hd'. congruence.
  - intros e e' b He He' Hb Hb'.
    apply in_einds in Hb as (idx & c & -> & _). apply in_einds in Hb' as (idx' & c' & E & _).
    injection E as E _. eapply name_inj; eauto.
Qed.

Lemma Leaf_inv s ci e : Leaf s ci e ->
  exists e0 idx c, ci = KS (e_name e0) :: map KI idx ++ c /\ In e0 (s_entries s) /\ InDims idx (e_dims e0) /\
    ((e_struct e0 = None /\ c = [] /\ e = e0) \/ exists s', e_struct e0 = Some s' /\ Leaf s' c e).
Proof.
  destruct 1 as [s e idx He Es Hd|s e idx s' c e' He Es Hd Hl].
  - exists e, idx, []. rewrite app_nil_r. auto 10.
  - exists e, idx, c. eauto 10.
Qed.

Lemma Leaf_fun s ci e e' : Wf s -> Leaf s ci e -> Leaf s ci e' -> e = e'.
Proof.
  intros Hw. revert ci e e'. induction Hw as [es order Hnd Hp Hsp Hsub IH]. intros ci e e' Hl Hl'.
  apply Leaf_inv in Hl as (e0 & idx & c & -> & He & Hd & Hc).
  apply Leaf_inv in Hl' as (e0' & idx' & c' & Eq & He' & Hd' & Hc').
  injection Eq as En Eq. assert (e0' = e0) by (eapply name_inj; eauto). subst e0'.
  destruct Hc as [(Es & -> & ->)|(s' & Es & Hl)], Hc' as [(Es' & -> & ->)|(s'' & Es' & Hl')]; try congruence.
  assert (s'' = s') by congruence. subst s''.
  apply map_KI_app_inv2 in Eq as [-> ->]; [|right; eapply Leaf_starts; eassumption..].
  eapply IH; eauto.
Qed.

(** ** Look-up of the entry of a leaf *)

Lemma cidx_names_KI idx : cidx_names (map KI idx) = [].
Proof. unfold cidx_names. induction idx; simpl; auto. Qed.

Lemma cidx_names_app a b : cidx_names (a ++ b) = cidx_names a ++ cidx_names b.
Proof. unfold cidx_names. apply flat_map_app. Qed.

Lemma s_dict_get s e : NoDup (map e_name (s_entries s)) -> In e (s_entries s) ->
  dict_get (e_name e) (s_dict s) = Some e.
Proof.
  intros Hnd He. apply dict_get_pydict.
  - rewrite map_map. exact Hnd.
  - apply in_map_iff. eauto.
Qed.

Lemma Leaf_get s ci e : Wf s -> Leaf s ci e -> getStructEntryByCanonicalIndex s ci = Ok e.
Proof.
  intros Hw Hl. unfold getStructEntryByCanonicalIndex. revert Hw.
  induction Hl as [s e idx He Es Hd|s e idx s' c e' He Es Hd Hl IH]; intros Hw.
  - simpl. rewrite cidx_names_KI. simpl. inversion Hw; subst.
    rewrite s_dict_get; auto.
  - simpl. rewrite cidx_names_app, cidx_names_KI. simpl. inversion Hw as [es order Hnd Hp Hsp Hsub]; subst.
    rewrite s_dict_get; auto. specialize (IH (Hsub e s' He Es)).
    pose proof (Leaf_starts _ _ _ Hl) as (n & r & ->). simpl in *.
    fold (cidx_names r) in *. rewrite Es. exact IH.
Qed.
