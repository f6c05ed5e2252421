From Coq Require Import Permutation Sorted.
From Verif Require Import PyBase IndexModel DMModel StructModel StructSpec IndexProofs StructProofs.

(** ** Ancestors *)

Lemma strip_rev_Some r q : strip_rev r = Some q -> exists idx n, r = map KI idx ++ KS n :: q.
Proof.
  induction r as [|[n|i] r IH]; simpl; intros H; [discriminate| |].
  - injection H as ->. exists [], n. reflexivity.
  - destruct (IH H) as (idx & n & ->). exists (i :: idx), n. reflexivity.
Qed.

Lemma strip_rev_None r : strip_rev r = None -> exists idx, r = map KI idx.
Proof.
  induction r as [|[n|i] r IH]; simpl; intros H; [exists []; reflexivity|discriminate|].
  destruct (IH H) as (idx & ->). exists (i :: idx). reflexivity.
Qed.

Lemma KS_not_in_KI n idx x r : map KI idx <> x ++ KS n :: r.
Proof.
  intros E. assert (Hin : In (KS n) (map KI idx)) by (rewrite E; apply in_or_app; right; left; reflexivity).
  apply in_map_iff in Hin as (? & ? & _). discriminate.
Qed.

Lemma ancestors_fuel_spec : forall fuel ci,
  length ci <= fuel -> (ci = [] \/ starts_name ci) ->
  exists l, ancestors_fuel fuel ci = Ok l /\ NoDup l /\
    (forall a, In a l <-> a <> [] /\ exists r, ci = a ++ r /\ (r = [] \/ starts_name r)) /\
    (ci <> [] -> exists l', l = ci :: l').
Proof.
  induction fuel as [|fuel IH]; intros ci Hlen Hst.
  - destruct ci; [|simpl in Hlen; lia]. exists []. simpl. repeat split; try constructor; try tauto.
    intros (Ha & r & E & _). symmetry in E. apply app_eq_nil in E. tauto.
  - destruct ci as [|k ci0].
    + exists []. simpl. repeat split; try constructor; try tauto.
      intros (Ha & r & E & _). symmetry in E. apply app_eq_nil in E. tauto.
    + set (ci := k :: ci0) in *. destruct Hst as [Hst|Hst]; [discriminate|].
      unfold ancestors_fuel; fold ancestors_fuel. unfold ci at 1. fold ci.
      destruct (strip_rev (rev ci)) as [q|] eqn:Es.
      2:{ apply strip_rev_None in Es as (idx & Es). destruct Hst as (n & r & Hst).
          assert (E : ci = map KI (rev idx)) by (rewrite map_rev, <- Es, rev_involutive; reflexivity).
          exfalso. rewrite Hst in E. exact (KS_not_in_KI n (rev idx) [] r (eq_sym E)). }
      apply strip_rev_Some in Es as (idx & n & Es).
      assert (E : ci = rev q ++ KS n :: map KI (rev idx)).
      { rewrite <- (rev_involutive ci), Es, rev_app_distr. simpl. rewrite <- map_rev, <- app_assoc. reflexivity. }
      set (p := rev q) in *.
      assert (Hp : p = [] \/ starts_name p).
      { destruct p as [|k' p']; [left; reflexivity|right]. destruct Hst as (n' & r & Hst).
        rewrite Hst in E. simpl in E. injection E as <- _. exists n', p'. reflexivity. }
      assert (Hlp : length p < length ci) by (rewrite E, app_length; simpl; lia).
      destruct (IH p ltac:(lia) Hp) as (l' & Hl' & Hnd & Hin & _).
      rewrite Hl'. simpl. exists (ci :: l'). split; [reflexivity|]. split; [|split].
      * constructor; [|exact Hnd]. intros Hc. apply Hin in Hc as (_ & r & Er & _).
        rewrite Er, app_length in Hlp. lia.
      * intros a. simpl. rewrite Hin. split.
        -- intros [<-|(Ha & r & Er & Hr)].
           ++ split; [discriminate|]. exists []. rewrite app_nil_r. auto.
           ++ split; [exact Ha|]. exists (r ++ KS n :: map KI (rev idx)). rewrite app_assoc, <- Er. split; [exact E|].
              right. destruct Hr as [->|(m & r' & ->)]; [exists n, (map KI (rev idx))|exists m, (r' ++ KS n :: map KI (rev idx))]; reflexivity.
        -- intros (Ha & r & Er & Hr). destruct Hr as [->|(m & r' & ->)].
           ++ left. now rewrite app_nil_r in Er.
           ++ right. split; [exact Ha|]. rewrite E in Er.
              apply app_eq_app in Er as (x & [[Ex Ey]|[Ex Ey]]).
              ** exists x. split; [exact Ex|]. destruct x as [|k' x]; [left; reflexivity|right].
                 injection Ey as <- _. exists m, x. reflexivity.
              ** destruct x as [|k' x].
                 --- exists []. rewrite app_nil_r in Ex. rewrite app_nil_r. auto.
                 --- simpl in Ey. injection Ey as _ Ey. exfalso. eapply KS_not_in_KI, Ey.
      * intros _. exists l'. reflexivity.
Qed.

Definition anc (ci : cidx) : list cidx :=
  match canonicalIndexAncestors ci with Ok l => tl l | Err _ => [] end.

Lemma ancestors_ok ci : starts_name ci ->
  canonicalIndexAncestors ci = Ok (ci :: anc ci) /\ NoDup (anc ci) /\
  (forall a, In a (anc ci) <-> a <> [] /\ exists r, ci = a ++ r /\ starts_name r).
Proof.
  intros Hst. unfold anc, canonicalIndexAncestors.
  destruct (ancestors_fuel_spec (length ci) ci (le_n _) (or_intror Hst)) as (l & Hl & Hnd & Hin & Hhd).
  rewrite Hl. destruct Hhd as (l' & ->). { destruct Hst as (n & r & ->). discriminate. }
  simpl. split; [reflexivity|]. inversion Hnd as [|? ? Hni Hnd']; subst. split; [exact Hnd'|].
  intros a. split.
  - intros Ha. destruct (proj1 (Hin a) (or_intror Ha)) as (Hne & r & E & [->|Hr]).
    + rewrite app_nil_r in E. subst a. contradiction.
    + split; [exact Hne|]. eauto.
  - intros (Hne & r & E & Hr). destruct (proj2 (Hin a)) as [<-|Ha]; [eauto 10| |exact Ha].
    exfalso. destruct Hr as (n & r' & ->). apply (f_equal (@length ck)) in E. rewrite app_length in E. simpl in E. lia.
Qed.

(** ** Dictionaries keyed by canonical indices *)

Section CMap.
Context {V : Type}.
Implicit Types (d : list (cidx * V)) (v : V).

Lemma cmap_get_set_same k v d : cmap_get k (cmap_set k v d) = Some v.
Proof.
  induction d as [|[k' v'] d IH]; simpl; [now rewrite cidx_eqb_refl|].
  destruct (cidx_eqb k k') eqn:E; simpl; rewrite E; auto.
Qed.

Lemma cmap_get_set_other k k2 v d : k <> k2 -> cmap_get k2 (cmap_set k v d) = cmap_get k2 d.
Proof.
  intros Hn. induction d as [|[k' v'] d IH]; simpl.
  - rewrite cidx_eqb_neq; auto.
  - destruct (cidx_eqb k k') eqn:E; simpl.
    + apply cidx_eqb_eq in E. subst k'. rewrite cidx_eqb_neq; auto.
    + now rewrite IH.
Qed.

Lemma cmap_set_fresh k v d : cmap_get k d = None -> cmap_set k v d = d ++ [(k, v)].
Proof.
  induction d as [|[k' v'] d IH]; simpl; [reflexivity|].
  destruct (cidx_eqb k k') eqn:E; [discriminate|]. intros H. now rewrite IH.
Qed.

Lemma cmap_get_app k d d' :
  cmap_get k (d ++ d') = match cmap_get k d with Some v => Some v | None => cmap_get k d' end.
Proof. induction d as [|[k' v'] d IH]; simpl; [reflexivity|]. destruct (cidx_eqb k k'); auto. Qed.

Lemma cmap_get_In k v d : NoDup (map fst d) -> cmap_get k d = Some v <-> In (k, v) d.
Proof.
  induction d as [|[k' v'] d IH]; simpl; intros Hnd; [split; [discriminate|tauto]|].
  inversion Hnd as [|? ? Hni Hnd']; subst.
  destruct (cidx_eqb k k') eqn:E.
  - apply cidx_eqb_eq in E. subst k'. split.
    + intros [= ->]. left; reflexivity.
    + intros [[= ->]|Hin]; [reflexivity|]. exfalso; apply Hni. apply in_map_iff. exists (k, v). auto.
  - rewrite IH by assumption. split; [tauto|]. intros [[= -> ->]|Hin]; [|exact Hin].
    rewrite cidx_eqb_refl in E. discriminate.
Qed.

Lemma cmap_get_None k d : cmap_get k d = None <-> ~ In k (map fst d).
Proof.
  induction d as [|[k' v'] d IH]; simpl; [tauto|].
  destruct (cidx_eqb k k') eqn:E.
  - apply cidx_eqb_eq in E. subst. split; [discriminate|]. intros H; exfalso; apply H; left; reflexivity.
  - rewrite IH. split; [|tauto]. intros H [->|Hin]; [|tauto]. rewrite cidx_eqb_refl in E. discriminate.
Qed.

Lemma cmap_set_keys k v d : incl (map fst (cmap_set k v d)) (k :: map fst d).
Proof.
  induction d as [|[k' v'] d IH]; simpl; intros x Hx; [exact Hx|].
  destruct (cidx_eqb k k') eqn:E; simpl in Hx.
  - right; exact Hx.
  - destruct Hx as [<-|Hx]; [right; left; reflexivity|]. destruct (IH x Hx) as [<-|H]; [left; reflexivity|right; right; exact H].
Qed.

Lemma NoDup_cmap_set k v d : NoDup (map fst d) -> NoDup (map fst (cmap_set k v d)).
Proof.
  induction d as [|[k' v'] d IH]; simpl; intros Hnd; [constructor; [intros []|constructor]|].
  inversion Hnd as [|? ? Hni Hnd']; subst.
  destruct (cidx_eqb k k') eqn:E; simpl; [exact Hnd|]. constructor; [|auto].
  intros Hin. destruct (cmap_set_keys k v d k' Hin) as [<-|H]; [|contradiction].
  rewrite cidx_eqb_refl in E. discriminate.
Qed.

Lemma cmap_update u : forall d k, NoDup (map fst u) ->
  cmap_get k (fold_left (fun m kv => cmap_set (fst kv) (snd kv) m) u d) =
  match cmap_get k u with Some v => Some v | None => cmap_get k d end.
Proof.
  induction u as [|[k' v'] u IH]; intros d k Hnd; simpl; [reflexivity|].
  inversion Hnd as [|? ? Hni Hnd']; subst. rewrite IH by assumption.
  destruct (cidx_eqb k k') eqn:E.
  - apply cidx_eqb_eq in E. subst k'. assert (cmap_get k u = None) as -> by now apply cmap_get_None.
    apply cmap_get_set_same.
  - rewrite cmap_get_set_other; [reflexivity|]. intros ->. rewrite cidx_eqb_refl in E. discriminate.
Qed.
End CMap.

(** ** The construction loop *)

Definition leaf_sp (s : structure) (i : cidx) : spy :=
  match getStructEntryByCanonicalIndex s i with Ok e => e_sp e | Err _ => sp_dense 0 0 end.

Definition tot (s : structure) (l : list cidx) : nat := list_sum (map (fun i => sp_nnz (leaf_sp s i)) l).

Fixpoint layout (s : structure) (k : nat) (l : list cidx) : list (cidx * dm nat) :=
  match l with
  | [] => []
  | i :: l' => (i, DM (leaf_sp s i) (seq k (sp_nnz (leaf_sp s i)))) :: layout s (k + sp_nnz (leaf_sp s i)) l'
  end.

Definition lut_of (m : list (cidx * dm nat)) : list (cidx * nat * (nat * nat)) :=
  flat_map (fun im => map (fun kp => (fst im, fst kp, (snd (snd kp), fst (snd kp))))
                          (List.combine (seq 0 (sp_nnz (dm_sp (snd im)))) (sp_pat (dm_sp (snd im))))) m.

Definition oget {A} (l : list A) : option (list A) := match l with [] => None | _ => Some l end.

Definition under (a : cidx) (kv : cidx * dm nat) : bool := existsb (cidx_eqb a) (anc (fst kv)).

Lemma existsb_cidx a l : existsb (cidx_eqb a) l = true <-> In a l.
Proof.
  rewrite existsb_exists. split.
  - intros (x & Hx & E). apply cidx_eqb_eq in E. now subst.
  - intros H. exists a. split; [exact H|apply cidx_eqb_refl].
Qed.

Lemma hmap_fold m : forall l h a, NoDup l ->
  cmap_get a (fold_left (hmap_add m) l h) =
  if existsb (cidx_eqb a) l
  then Some (match cmap_get a h with Some x => x | None => [] end ++ [m]) else cmap_get a h.
Proof.
  induction l as [|k l IH]; intros h a Hnd; simpl; [reflexivity|].
  inversion Hnd as [|? ? Hni Hnd']; subst. rewrite IH by assumption.
  unfold hmap_add. destruct (cidx_eqb a k) eqn:E; simpl.
  - apply cidx_eqb_eq in E. subst k.
    assert (existsb (cidx_eqb a) l = false) as ->.
    { destruct (existsb (cidx_eqb a) l) eqn:Ex; [|reflexivity]. apply existsb_cidx in Ex. contradiction. }
    destruct (cmap_get a h); rewrite cmap_get_set_same; reflexivity.
  - assert (Hk : k <> a). { intros ->. rewrite cidx_eqb_refl in E. discriminate. }
    destruct (cmap_get k h); rewrite cmap_get_set_other by assumption; reflexivity.
Qed.

Lemma hmap_fold_NoDup m : forall l h, NoDup (map fst h) -> NoDup (map fst (fold_left (hmap_add m) l h)).
Proof.
  induction l as [|k l IH]; intros h Hnd; simpl; [exact Hnd|]. apply IH. unfold hmap_add.
  destruct (cmap_get k h); now apply NoDup_cmap_set.
Qed.

Lemma build_loop_spec s : forall l b,
  NoDup l ->
  (forall i, In i l -> exists e, Leaf s i e) -> Wf s ->
  (forall i, In i l -> cmap_get i (b_map b) = None) ->
  NoDup (map fst (b_hmap b)) ->
  exists b', build_loop s l b = Ok b' /\
    b_k b' = b_k b + tot s l /\
    b_map b' = b_map b ++ layout s (b_k b) l /\
    b_lut b' = b_lut b ++ lut_of (layout s (b_k b) l) /\
    NoDup (map fst (b_hmap b')) /\
    (forall a ms, cmap_get a (b_hmap b) = oget ms ->
       cmap_get a (b_hmap b') = oget (ms ++ map snd (filter (under a) (layout s (b_k b) l)))).
Proof.
  induction l as [|i l IH]; intros b Hnd Hleaf Hw Hfresh Hh.
  - exists b. simpl. rewrite !app_nil_r. unfold tot. simpl. repeat split; auto.
    intros a ms E. now rewrite app_nil_r.
  - inversion Hnd as [|? ? Hni Hnd']; subst.
    destruct (Hleaf i (or_introl eq_refl)) as (e & Hl).
    pose proof (Leaf_get s i e Hw Hl) as Hg.
    destruct (ancestors_ok i (Leaf_starts _ _ _ Hl)) as (Ha & Hand & _).
    cbn [build_loop]. unfold build_step. rewrite Hg. cbn [rbind]. rewrite Ha. cbn [rbind tl].
    assert (Hsp : leaf_sp s i = e_sp e) by (unfold leaf_sp; now rewrite Hg).
    set (m := DM (e_sp e) (seq (b_k b) (sp_nnz (e_sp e)))).
    match goal with |- context [build_loop s l ?b0] => set (b1 := b0) end.
    assert (Hf0 : cmap_get i (b_map b) = None) by (apply Hfresh; left; reflexivity).
    destruct (IH b1 Hnd') as (b' & Hb & Hk & Hm & Hlut & Hnh & Hhm).
    + intros j Hj. apply Hleaf; right; exact Hj.
    + exact Hw.
    + intros j Hj. unfold b1; cbn [b_map]. rewrite cmap_get_set_other.
      * apply Hfresh; right; exact Hj.
      * intros ->. contradiction.
    + unfold b1; cbn [b_hmap]. now apply hmap_fold_NoDup.
    + exists b'. split; [exact Hb|].
      unfold b1 in Hk, Hm, Hlut, Hhm; cbn [b_k b_map b_lut b_hmap] in Hk, Hm, Hlut, Hhm.
      cbn [layout]. rewrite Hsp. fold m.
      split; [|split; [|split; [|split]]].
      * rewrite Hk. unfold tot. simpl. rewrite Hsp. lia.
      * rewrite Hm, (cmap_set_fresh i m (b_map b) Hf0), <- app_assoc. reflexivity.
      * rewrite Hlut, <- app_assoc. reflexivity.
      * exact Hnh.
      * intros a ms E. cbn [filter]. unfold under at 1. cbn [fst].
        destruct (existsb (cidx_eqb a) (anc i)) eqn:Ex.
        -- cbn [map snd]. rewrite (Hhm a (ms ++ [m])).
           ++ now rewrite <- app_assoc.
           ++ rewrite hmap_fold by assumption. rewrite Ex, E. destruct ms; reflexivity.
        -- apply Hhm. rewrite hmap_fold by assumption. rewrite Ex. exact E.
Qed.

Lemma layout_app s l1 : forall k l2, layout s k (l1 ++ l2) = layout s k l1 ++ layout s (k + tot s l1) l2.
Proof.
  unfold tot. induction l1 as [|i l1 IH]; intros k l2; simpl; [now rewrite Nat.add_0_r|].
  f_equal. rewrite IH. do 2 f_equal. lia.
Qed.

Lemma layout_keys s k l : map fst (layout s k l) = l.
Proof. revert k; induction l as [|i l IH]; intros k; simpl; [reflexivity|]. now rewrite IH. Qed.

Lemma layout_nz s : forall l k, flat_map (fun kv => dm_nz (snd kv)) (layout s k l) = seq k (tot s l).
Proof.
  unfold tot. induction l as [|i l IH]; intros k; simpl; [reflexivity|]. rewrite IH, seq_app. reflexivity.
Qed.

(** The result of building a well-formed structure. *)
Definition map_of (s : structure) : list (cidx * dm nat) := layout s 0 (leaves s).

Lemma casadi_structure_ok s : Wf s -> exists c, casadi_structure s = Ok c /\
  cs_struct c = s /\ cs_size c = tot s (leaves s) /\ cs_lut c = lut_of (map_of s) /\
  (forall a, cmap_get a (cs_map c) =
     match filter (under a) (map_of s) with
     | [] => cmap_get a (map_of s)
     | ms => Some (dm_col (flat_map (fun kv => dm_nz (snd kv)) ms))
     end).
Proof.
  intros Hw. unfold casadi_structure. rewrite traverse_leaves.
  destruct (build_loop_spec s (leaves s) (Build 0 [] [] [])) as (b & Hb & Hk & Hm & Hl & Hn & Hh); simpl; auto.
  - now apply NoDup_leaves.
  - intros i Hi. now apply in_leaves.
  - constructor.
  - rewrite Hb. simpl. eexists. split; [reflexivity|]. cbn [cs_struct cs_size cs_lut cs_map].
    repeat split.
    + exact Hk.
    + exact Hl.
    + intros a. assert (Hn' : NoDup (map fst (hmap_close (b_hmap b)))).
      { unfold hmap_close. rewrite map_map. simpl. exact Hn. }
      rewrite cmap_update by exact Hn'. rewrite Hm. cbn [b_map app].
      specialize (Hh a [] eq_refl). cbn [app] in Hh. fold (map_of s) in *.
      assert (E : forall h, cmap_get a (hmap_close h) =
                match cmap_get a h with Some l => Some (dm_col (flat_map (@dm_nz nat) l)) | None => None end).
      { clear. unfold hmap_close. induction h as [|[k v] h IH]; simpl; [reflexivity|].
        destruct (cidx_eqb a k); auto. }
      rewrite E. simpl b_k in Hh. fold (map_of s) in Hh. rewrite Hh.
      destruct (filter (under a) (map_of s)) as [|x xs] eqn:Ef; [reflexivity|].
      cbn [map oget]. do 2 f_equal. clear.
      change (snd x :: map snd xs) with (map snd (x :: xs)).
      rewrite !flat_map_concat_map, map_map. reflexivity.
Qed.

(** ** Leaves and blocks *)

Lemma Leaf_prefix_free s i r e e' : Wf s -> Leaf s i e -> Leaf s (i ++ r) e' -> r = [].
Proof.
  intros Hw. revert i r e e'. induction Hw as [es order Hnd Hp Hsp Hsub IH]. intros i r e e' Hl Hl'.
  apply Leaf_inv in Hl as (e0 & idx & c & -> & He & Hd & Hc).
  apply Leaf_inv in Hl' as (e0' & idx' & c' & Eq & He' & Hd' & Hc').
  simpl in Eq. injection Eq as En Eq. assert (e0' = e0) by (eapply name_inj; eauto). subst e0'.
  rewrite <- app_assoc in Eq.
  apply map_KI_app_inv in Eq as [<- Eq].
  2:{ apply Forall2_len in Hd, Hd'. congruence. }
  destruct Hc as [(Es & -> & ->)|(s' & Es & Hl)], Hc' as [(Es' & -> & ->)|(s'' & Es' & Hl')]; try congruence.
  - exact Eq.
  - assert (s'' = s') by congruence. subst s'' c'. exact (IH e0 s' He Es c r e e' Hl Hl').
Qed.

Lemma Block_Wf s p s' : Wf s -> Block s p s' -> Wf s'.
Proof.
  intros Hw Hb. revert Hw. induction Hb as [s e idx s' He Es Hd|s e idx s' p s'' He Es Hd Hb IH]; intros Hw;
  destruct Hw as [es order Hnd Hp Hsp Hsub]; simpl in *; eauto.
Qed.

Lemma Block_starts s p s' : Block s p s' -> starts_name p.
Proof. destruct 1; eexists; eexists; reflexivity. Qed.

Lemma Block_Leaf s p s' r e : Wf s -> Block s p s' -> Leaf s (p ++ r) e <-> Leaf s' r e.
Proof.
  intros Hw Hb. revert Hw. induction Hb as [s e0 idx s' He Es Hd|s e0 idx s' p s'' He Es Hd Hb IH]; intros Hw.
  - split.
    + intros Hl. apply Leaf_inv in Hl as (e1 & idx1 & c & Eq & He1 & Hd1 & Hc).
      simpl in Eq. injection Eq as En Eq. destruct Hw as [es order Hnd Hp Hsp Hsub]. simpl in *.
      assert (e1 = e0) by (eapply name_inj; eauto). subst e1.
      apply map_KI_app_inv in Eq as [<- ->].
      2:{ apply Forall2_len in Hd, Hd1. congruence. }
      destruct Hc as [(Es' & _)|(s1 & Es' & Hl)]; congruence.
    + intros Hl. simpl. eapply Leaf_sub; eauto.
  - assert (Hw' : Wf s') by (destruct Hw; simpl in *; eauto). split.
    + intros Hl. apply Leaf_inv in Hl as (e1 & idx1 & c & Eq & He1 & Hd1 & Hc).
      simpl in Eq. injection Eq as En Eq. destruct Hw as [es order Hnd Hp Hsp Hsub]. simpl in *.
      assert (e1 = e0) by (eapply name_inj; eauto). subst e1. rewrite <- app_assoc in Eq.
      apply map_KI_app_inv in Eq as [<- <-].
      2:{ apply Forall2_len in Hd, Hd1. congruence. }
      destruct Hc as [(Es' & _)|(s1 & Es' & Hl)]; [congruence|].
      assert (s1 = s') by congruence. subst. now apply IH.
    + intros Hl. simpl. rewrite <- app_assoc. eapply Leaf_sub; eauto. now apply IH.
Qed.

Lemma Block_leaf_sp s p s' r : Wf s -> Block s p s' -> In r (leaves s') -> leaf_sp s (p ++ r) = leaf_sp s' r.
Proof.
  intros Hw Hb Hr. apply in_leaves in Hr as (e & Hl); [|eapply Block_Wf; eauto].
  unfold leaf_sp. rewrite (Leaf_get s' r e), (Leaf_get s (p ++ r) e); auto.
  - apply (Block_Leaf s p s'); auto.
  - eapply Block_Wf; eauto.
Qed.

(** ** Contiguity *)

Definition segment {A} (x l : list A) : Prop := exists l1 l2, l = l1 ++ x ++ l2.

Lemma segment_refl {A} (x : list A) : segment x x.
Proof. exists [], []. now rewrite app_nil_r. Qed.

Lemma segment_trans {A} (x y z : list A) : segment x y -> segment y z -> segment x z.
Proof.
  intros (a & b & ->) (c & d & ->). exists (c ++ a), (b ++ d). now rewrite !app_assoc.
Qed.

Lemma segment_concat {A} (l : list A) ls : In l ls -> segment l (concat ls).
Proof.
  intros H. apply in_split in H as (a & b & ->). rewrite concat_app. simpl. exists (concat a), (concat b). reflexivity.
Qed.

Lemma segment_flat_map {A B} (f : A -> list B) a l : In a l -> segment (f a) (flat_map f l).
Proof. intros H. rewrite flat_map_concat_map. apply segment_concat. now apply in_map. Qed.

Lemma segment_map {A B} (f : A -> B) x l : segment x l -> segment (map f x) (map f l).
Proof. intros (a & b & ->). exists (map f a), (map f b). now rewrite !map_app. Qed.

Lemma segment_flat_map2 {A B} (f : A -> list B) x l : segment x l -> segment (flat_map f x) (flat_map f l).
Proof. intros (a & b & ->). exists (flat_map f a), (flat_map f b). now rewrite !flat_map_app. Qed.

Lemma entry_segment es order e idx :
  NoDup (map e_name es) -> Permutation (flat_map oelem_names order) (map e_name es) ->
  In e es -> InDims idx (e_dims e) ->
  segment (map (fun c => KS (e_name e) :: map KI idx ++ c) (ch e)) (leaves (mkStruct es order)).
Proof.
  intros Hnd Hp He Hd. rewrite leaves_eq. unfold order_indices.
  set (d := pydict _).
  assert (Hg : dict_get (e_name e) d = Some (e_dims e, ch e)).
  { unfold d. apply dict_get_pydict.
    - rewrite map_map. exact Hnd.
    - apply in_map_iff. exists e. auto. }
  assert (Hin : In (e_name e) (flat_map oelem_names order)).
  { eapply Permutation_in; [symmetry; exact Hp|]. now apply in_map. }
  apply in_flat_map in Hin as (o & Ho & Hn).
  assert (Hli : In (map KI idx) (listindices (e_dims e))) by (apply in_listindices; eauto).
  eapply segment_trans; [|apply segment_flat_map; exact Ho].
  destruct o as [n|ns]; cbn [oelem_names] in Hn.
  - destruct Hn as [->|[]]. rewrite Hg. cbn [fst snd]. rewrite entry_indices_eq.
    apply (segment_flat_map (fun i => map (fun c => KS (e_name e) :: i ++ c) (ch e))). exact Hli.
  - match goal with |- context [intersperse (map ?f ns)] => set (F := f) end.
    rewrite <- concat_listindices_nest in Hli. apply in_concat in Hli as (blk & Hblk & Hi).
    eapply segment_trans with (y := combine_ [[[KS (e_name e)]]; blk; ch e]).
    + replace (combine_ [[[KS (e_name e)]]; blk; ch e]) with
        (flat_map (fun i => map (fun c => KS (e_name e) :: i ++ c) (ch e)) blk)
        by (symmetry; exact (combine3 [KS (e_name e)] blk (ch e))).
      apply (segment_flat_map (fun i => map (fun c => KS (e_name e) :: i ++ c) (ch e))). exact Hi.
    + apply segment_concat. eapply Permutation_in; [symmetry; apply intersperse_perm|].
      apply in_concat. exists (F (e_name e)). split; [now apply in_map|].
      unfold F. rewrite Hg. cbn [fst snd]. unfold entry_indices_nest. apply in_map_iff. exists blk. auto.
Qed.

Lemma Block_segment s p s' : Wf s -> Block s p s' -> segment (map (app p) (leaves s')) (leaves s).
Proof.
  intros Hw Hb. revert Hw. induction Hb as [s e idx s' He Es Hd|s e idx s' p s'' He Es Hd Hb IH]; intros Hw;
  destruct Hw as [es order Hnd Hp Hsp Hsub]; simpl in He;
  pose proof (entry_segment es order e idx Hnd Hp He Hd) as Hseg; unfold ch in Hseg; rewrite Es in Hseg.
  - exact Hseg.
  - specialize (IH (Hsub _ _ He Es)).
    eapply segment_trans; [|exact Hseg].
    apply (segment_map (fun c => KS (e_name e) :: map KI idx ++ c)) in IH.
    rewrite map_map in IH. erewrite map_ext; [exact IH|]. intros c. simpl. now rewrite app_assoc.
Qed.

(** ** The index map *)

Lemma NoDup_app_disj {A} (a b : list A) : NoDup (a ++ b) -> (forall x, In x a -> In x b -> False) /\ NoDup b.
Proof.
  induction a as [|y a IH]; simpl; intros H; [split; [tauto|exact H]|].
  inversion H as [|? ? Hni Hnd]; subst. destruct (IH Hnd) as [H1 H2]. split; [|exact H2].
  intros x [->|Hx] Hb; [apply Hni, in_or_app; right; exact Hb|eauto].
Qed.


Lemma under_spec s a kv : Wf s -> In (fst kv) (leaves s) ->
  under a kv = true <-> a <> [] /\ exists r, fst kv = a ++ r /\ starts_name r.
Proof.
  intros Hw Hin. unfold under. rewrite existsb_cidx.
  apply in_leaves in Hin as (e & Hl); [|exact Hw].
  destruct (ancestors_ok (fst kv) (Leaf_starts _ _ _ Hl)) as (_ & _ & H). apply H.
Qed.

Lemma filter_nil {A} (f : A -> bool) l : (forall x, In x l -> f x = false) -> filter f l = [].
Proof.
  induction l as [|a l IH]; intros H; simpl; [reflexivity|].
  rewrite (H a (or_introl eq_refl)). apply IH. intros; apply H; now right.
Qed.

Lemma filter_all {A} (f : A -> bool) l : (forall x, In x l -> f x = true) -> filter f l = l.
Proof.
  induction l as [|a l IH]; intros H; simpl; [reflexivity|].
  rewrite (H a (or_introl eq_refl)). f_equal. apply IH. intros; apply H; now right.
Qed.

Lemma in_layout_keys s k l kv : In kv (layout s k l) -> In (fst kv) l.
Proof. intros H. rewrite <- (layout_keys s k l). now apply in_map. Qed.

Lemma map_leaf s c l1 i l2 : Wf s -> casadi_structure s = Ok c -> leaves s = l1 ++ i :: l2 ->
  cmap_get i (cs_map c) = Some (DM (leaf_sp s i) (seq (tot s l1) (sp_nnz (leaf_sp s i)))).
Proof.
  intros Hw Hc Hs. destruct (casadi_structure_ok s Hw) as (c' & Hc' & _ & _ & _ & Hm).
  rewrite Hc in Hc'. injection Hc' as <-. rewrite Hm.
  assert (Hi : In i (leaves s)) by (rewrite Hs; apply in_or_app; right; left; reflexivity).
  rewrite filter_nil.
  - unfold map_of. rewrite Hs, layout_app, cmap_get_app.
    assert (cmap_get i (layout s 0 l1) = None) as ->.
    { apply cmap_get_None. rewrite layout_keys. intros Hin.
      pose proof (NoDup_leaves s Hw) as Hnd. rewrite Hs in Hnd. apply NoDup_remove_2 in Hnd.
      apply Hnd. apply in_or_app. left; exact Hin. }
    simpl. now rewrite cidx_eqb_refl.
  - intros kv Hkv. apply in_layout_keys in Hkv. destruct (under i kv) eqn:E; [exfalso|reflexivity].
    apply (under_spec s) in E as (_ & r & Er & (n & r' & Hr)); auto.
    apply in_leaves in Hi as (e & Hl); auto. apply in_leaves in Hkv as (e' & Hl'); auto.
    rewrite Er in Hl'. apply (Leaf_prefix_free s i r e e' Hw Hl) in Hl'. subst. discriminate.
Qed.

Lemma tot_block s p s' : Wf s -> Block s p s' -> tot s (map (app p) (leaves s')) = tot s' (leaves s').
Proof.
  intros Hw Hb. unfold tot. rewrite map_map. f_equal. apply map_ext_in. intros r Hr.
  now rewrite (Block_leaf_sp s p s' r Hw Hb Hr).
Qed.

Lemma map_block s c p s' l1 l2 : Wf s -> casadi_structure s = Ok c -> Block s p s' -> leaves s' <> [] ->
  leaves s = l1 ++ map (app p) (leaves s') ++ l2 ->
  cmap_get p (cs_map c) = Some (dm_col (seq (tot s l1) (tot s' (leaves s')))).
Proof.
  intros Hw Hc Hb Hne Hs. destruct (casadi_structure_ok s Hw) as (c' & Hc' & _ & _ & _ & Hm).
  rewrite Hc in Hc'. injection Hc' as <-. rewrite Hm.
  pose proof (NoDup_leaves s Hw) as Hnd. rewrite Hs in Hnd.
  assert (Hpn : p <> []). { destruct (Block_starts _ _ _ Hb) as (n & r & ->). discriminate. }
  assert (Hw' : Wf s') by (eapply Block_Wf; eauto).
  assert (Hin_iff : forall i, In i (leaves s) -> (exists r, i = p ++ r /\ starts_name r) -> In i (map (app p) (leaves s'))).
  { intros i Hi (r & -> & Hr). apply in_leaves in Hi as (e & Hl); auto.
    apply (Block_Leaf s p s') in Hl; auto. apply in_map. apply in_leaves; eauto. }
  set (M := map (app p) (leaves s')) in *.
  assert (Hf : filter (under p) (map_of s) = layout s (tot s l1) M).
  { unfold map_of. rewrite Hs, !layout_app, !filter_app. simpl.
    rewrite filter_nil, (filter_all _ (layout s (tot s l1) M)), (filter_nil _ (layout s _ l2)), app_nil_r; [reflexivity| | |].
    - intros kv Hkv. apply in_layout_keys in Hkv. destruct (under p kv) eqn:E; [exfalso|reflexivity].
      assert (Hi : In (fst kv) (leaves s)) by (rewrite Hs, !in_app_iff; tauto).
      apply (under_spec s) in E as (_ & r & Er & Hr); auto.
      assert (HM : In (fst kv) M) by eauto.
      apply NoDup_app_disj in Hnd as [_ Hnd]. apply (NoDup_app_disj _ _ Hnd) with (fst kv); assumption.
    - intros kv Hkv. apply in_layout_keys in Hkv.
      assert (Hi : In (fst kv) (leaves s)) by (rewrite Hs, !in_app_iff; tauto).
      apply (under_spec s); auto. split; [exact Hpn|]. unfold M in Hkv. apply in_map_iff in Hkv as (r & Er & Hr).
      exists r. split; [auto|]. apply in_leaves in Hr as (e & Hl); auto. eapply Leaf_starts; eauto.
    - intros kv Hkv. apply in_layout_keys in Hkv. destruct (under p kv) eqn:E; [exfalso|reflexivity].
      assert (Hi : In (fst kv) (leaves s)) by (rewrite Hs, !in_app_iff; tauto).
      apply (under_spec s) in E as (_ & r & Er & Hr); auto.
      assert (HM : In (fst kv) M) by eauto.
      apply (NoDup_app_disj _ _ Hnd) with (fst kv); [assumption|]. apply in_or_app; left; exact HM. }
  rewrite Hf. destruct (layout s (tot s l1) M) as [|x xs] eqn:E.
  - exfalso. apply (f_equal (map fst)) in E. rewrite layout_keys in E. unfold M in E. destruct (leaves s'); [congruence|discriminate].
  - rewrite <- E, layout_nz. unfold M. now rewrite tot_block.
Qed.

Lemma Leaf_prefix_Block s a r e : Leaf s (a ++ r) e -> starts_name r -> a <> [] ->
  exists s', Block s a s' /\ Leaf s' r e.
Proof.
  intros Hl Hr. remember (a ++ r) as ci eqn:E. revert a E.
  induction Hl as [s e idx He Es Hd|s e idx s' c e' He Es Hd Hl IH]; intros a E Hne.
  - destruct a as [|k a]; [congruence|]. simpl in E. injection E as <- E.
    destruct Hr as (m & r' & ->). exfalso. eapply KS_not_in_KI, E.
  - destruct a as [|k a]; [congruence|]. simpl in E. injection E as <- E.
    apply app_eq_app in E as (x & [[Ex Ey]|[Ex Ey]]).
    + destruct x as [|k x].
      * rewrite app_nil_r in Ex. simpl in Ey. subst. exists s'. split; [eapply Block_here; eauto|exact Hl].
      * exfalso. destruct Hr as (m & r' & ->). injection Ey as <- _. eapply KS_not_in_KI, Ex.
    + destruct x as [|k x].
      * rewrite app_nil_r in Ex. simpl in Ey. subst. exists s'. split; [eapply Block_here; eauto|exact Hl].
      * destruct (IH (k :: x) Ey ltac:(discriminate)) as (s'' & Hb & Hl').
        subst a. exists s''. split; [eapply Block_sub; eauto|exact Hl'].
Qed.

(** The map has no other keys. *)
Lemma map_keys s c a v : Wf s -> casadi_structure s = Ok c -> cmap_get a (cs_map c) = Some v ->
  (exists e, Leaf s a e) \/ (exists s', Block s a s' /\ leaves s' <> []).
Proof.
  intros Hw Hc Hv. destruct (casadi_structure_ok s Hw) as (c' & Hc' & _ & _ & _ & Hm).
  rewrite Hc in Hc'. injection Hc' as <-. rewrite Hm in Hv. clear Hm Hc.
  destruct (filter (under a) (map_of s)) as [|x xs] eqn:E.
  - left. apply in_leaves; auto. apply cmap_get_In in Hv.
    + apply (in_layout_keys s 0 _ (a, v)). exact Hv.
    + unfold map_of. rewrite layout_keys. now apply NoDup_leaves.
  - right. assert (Hx : In x (filter (under a) (map_of s))) by (rewrite E; left; reflexivity).
    apply filter_In in Hx as [Hx Hu]. apply in_layout_keys in Hx.
    apply (under_spec s) in Hu as (Hne & r & Er & Hr); auto.
    apply in_leaves in Hx as (e & Hl); auto. rewrite Er in Hl.
    destruct (Leaf_prefix_Block s a r e Hl Hr Hne) as (s' & Hb & Hl'). exists s'. split; [exact Hb|].
    intros Hn. assert (Hin : In r (leaves s')) by (apply in_leaves; [eapply Block_Wf; eauto|eauto]).
    rewrite Hn in Hin. destruct Hin.
Qed.
