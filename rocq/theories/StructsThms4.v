(** First-level indices and their blocks in the canonical order; relocation of the
    index map of a sub-structure. *)
From Verif Require Import PyBase IndexModel DMModel StructModel StructSpec PowerModel PowerSpec
  IndexProofs StructProofs LayoutProofs LayoutThms LayoutExamples DMProofs PowerProofs PowerThms EntryModel StructsModel StructsSpec StructsThms1.
Open Scope nat_scope.

(** ** The canonical order, first level first *)
Lemma list_max_map_length {A B} (g : A -> B) ls :
  list_max (map (@length B) (map (map g) ls)) = list_max (map (@length A) ls).
Proof. f_equal. rewrite map_map. apply map_ext. intros l. apply map_length. Qed.
Lemma round_robin_map {A B} (g : A -> B) ls : round_robin (map (map g) ls) = map g (round_robin ls).
Proof.
  unfold round_robin. rewrite list_max_map_length. generalize (seq 0 (list_max (map (@length A) ls))) as ks.
  induction ks as [|k ks IH]; [reflexivity|]. simpl. rewrite map_app, <- IH. f_equal. clear IH.
  induction ls as [|l ls IH]; [reflexivity|]. simpl. rewrite map_app, <- IH. f_equal.
  rewrite nth_error_map. now destruct (nth_error l k).
Qed.
Lemma intersperse_map {A B} (g : A -> B) ls : intersperse (map (map g) ls) = map g (intersperse ls).
Proof. rewrite !intersperse_spec. apply round_robin_map. Qed.

Definition tops (s : structure) : list cidx := s_traverse s 1.
Definition expand (s : structure) (t : cidx) : list cidx :=
  match t with
  | KS n :: _ => match dict_get n (s_dict s) with Some e => map (app t) (ch e) | None => [] end
  | _ => []
  end.

Lemma dict_map {V} (f : entry -> V) es n : NoDup (map e_name es) ->
  dict_get n (pydict (map (fun e => (e_name e, f e)) es)) =
  match dict_get n (pydict (map (fun e => (e_name e, e)) es)) with Some e => Some (f e) | None => None end.
Proof.
  intros Hnd.
  assert (H1 : NoDup (map fst (map (fun e => (e_name e, f e)) es))) by (rewrite map_map; exact Hnd).
  assert (H2 : NoDup (map fst (map (fun e => (e_name e, e)) es))) by (rewrite map_map; exact Hnd).
  destruct (dict_get n (pydict (map (fun e => (e_name e, e)) es))) as [e|] eqn:E.
  - apply dict_get_pydict in E; [|exact H2]. apply dict_get_pydict; [exact H1|]. apply in_map_iff in E as (e' & [= <- <-] & He).
    apply in_map_iff. eauto.
  - apply dict_get_pydict_None in E; [|exact H2]. apply dict_get_pydict_None; [exact H1|]. rewrite map_map in *. exact E.
Qed.

Lemma tops_eq es order : tops (mkStruct es order) =
  order_indices (pydict (map (fun e => (e_name e, (e_dims e, [[]]))) es)) order.
Proof.
  unfold tops. simpl. f_equal. f_equal. apply map_ext. intros [n d [s'|] sp sy og sh]; reflexivity.
Qed.

Lemma combine_expand n L (C : list cidx) : combine_ [[[KS n]]; L; C] = flat_map (fun t => map (app t) C) (combine_ [[[KS n]]; L; [[]]]).
Proof.
  rewrite !combine3. induction L as [|i L IH]; [reflexivity|]. cbn [flat_map]. rewrite IH, flat_map_app. f_equal. simpl. rewrite app_nil_r, app_nil_r. reflexivity.
Qed.
Lemma combine_heads n L t : In t (combine_ [[[KS n]]; L; [[]]]) -> exists r, t = KS n :: r.
Proof. rewrite combine3. intros H. apply in_flat_map in H as (i & _ & [<-|[]]). simpl. eauto. Qed.
Lemma flat_map_ext_in {A B} (f g : A -> list B) l : (forall a, In a l -> f a = g a) -> flat_map f l = flat_map g l.
Proof. induction l as [|a l IH]; intros H; [reflexivity|]. simpl. rewrite H by now left. rewrite IH; [reflexivity|]. intros b Hb. apply H. now right. Qed.

Lemma leaves_tops s : Wf s -> leaves s = flat_map (expand s) (tops s).
Proof.
  destruct s as [es order]. intros Hw. pose proof (Wf_NoDup _ Hw) as Hnd. simpl in Hnd. rewrite leaves_eq, tops_eq. unfold order_indices.
  assert (G : forall n L, let x := match dict_get n (pydict (map (fun e => (e_name e, (e_dims e, ch e))) es)) with Some x => x | None => ([0%Z], []) end in
      let y := match dict_get n (pydict (map (fun e => (e_name e, (e_dims e, [[]] : list cidx))) es)) with Some x => x | None => ([0%Z], []) end in
      fst x = fst y /\ combine_ [[[KS n]]; L; snd x] = flat_map (expand (mkStruct es order)) (combine_ [[[KS n]]; L; snd y])).
  { intros n L. cbv zeta. rewrite (dict_map (fun e => (e_dims e, ch e)) es n Hnd), (dict_map (fun e => (e_dims e, [[]])) es n Hnd).
    unfold expand, s_dict. simpl s_entries.
    destruct (dict_get n (pydict (map (fun e => (e_name e, e)) es))) as [e|] eqn:E; simpl fst; simpl snd.
    - split; [reflexivity|]. rewrite combine_expand. apply flat_map_ext_in. intros t Ht. apply combine_heads in Ht as [r ->].
      now rewrite E.
    - split; [reflexivity|]. rewrite !combine3. induction L; [reflexivity|assumption]. }
  revert G. generalize (expand (mkStruct es order)) as X. intros X G. clear Hw.
  induction order as [|o order IH]; [reflexivity|]. cbn [flat_map]. rewrite flat_map_app. f_equal; [|exact IH]. clear IH.
  destruct o as [n|ns].
  - unfold entry_indices. destruct (G n (listindices (fst (match dict_get n (pydict (map (fun e => (e_name e, (e_dims e, [[]] : list cidx))) es)) with Some x => x | None => ([0%Z], []) end)))) as [G1 G2].
    rewrite G1. exact G2.
  - rewrite flat_map_concat, <- intersperse_map, map_map. f_equal. f_equal. apply map_ext. intros n. unfold entry_indices_nest.
    rewrite map_map. destruct (G n []) as [G1 _]. rewrite G1. apply map_ext. intros L. destruct (G n L) as [_ G2]. exact G2.
Qed.

(** The first-level indices are the leaves once the sub-structures are forgotten. *)
Definition prim (e : entry) : entry := mkEntry (e_name e) (e_dims e) None (e_sp e) (e_symm e) (e_orig e) (e_shape e).
Definition flat (s : structure) : structure := mkStruct (map prim (s_entries s)) (s_order s).
Lemma tops_flat s : tops s = leaves (flat s).
Proof.
  destruct s as [es order]. rewrite tops_eq. unfold flat. rewrite leaves_eq. simpl. f_equal. f_equal. rewrite map_map. reflexivity.
Qed.
Lemma flat_Wf s : Wf s -> Wf (flat s).
Proof.
  intros [es order Hnd Hp Hsp Hsub]. unfold flat. simpl. constructor.
  - rewrite map_map. exact Hnd.
  - rewrite map_map. exact Hp.
  - intros e He. apply in_map_iff in He as (e' & <- & He'). simpl. auto.
  - intros e s' He E. apply in_map_iff in He as (e' & <- & He'). discriminate.
Qed.
Lemma in_tops s t : Wf s -> In t (tops s) <-> exists e idx, In e (s_entries s) /\ InDims idx (e_dims e) /\ t = top (e_name e) idx.
Proof.
  intros Hw. rewrite tops_flat, (in_leaves _ _ (flat_Wf s Hw)). split.
  - intros (e & Hl). destruct (Leaf_inv _ _ _ Hl) as (e0 & idx & c & -> & He0 & Hd & H). simpl in He0.
    apply in_map_iff in He0 as (e1 & <- & He1). destruct H as [(_ & -> & _)|(s' & E & _)]; [|discriminate].
    exists e1, idx. rewrite app_nil_r. auto.
  - intros (e & idx & He & Hd & ->). exists (prim e). apply (Leaf_prim (flat s) (prim e) idx); auto. simpl. now apply in_map.
Qed.
Lemma NoDup_tops s : Wf s -> NoDup (tops s).
Proof. intros Hw. rewrite tops_flat. apply NoDup_leaves. now apply flat_Wf. Qed.
Lemma expand_top s e idx : Wf s -> In e (s_entries s) -> expand s (top (e_name e) idx) = map (app (top (e_name e) idx)) (ch e).
Proof. intros Hw He. unfold expand, top. now rewrite (s_dict_get s e (Wf_NoDup _ Hw) He). Qed.
Lemma tops_apart s t t' : Wf s -> In t (tops s) -> In t' (tops s) -> t <> t' -> apart t t'.
Proof.
  intros Hw Ht Ht' Hn r r' E. apply in_tops in Ht as (e & idx & He & Hd & ->); [|exact Hw].
  apply in_tops in Ht' as (e' & idx' & He' & Hd' & ->); [|exact Hw]. unfold top in E. simpl in E. injection E as En E.
  pose proof (name_inj _ _ _ (Wf_NoDup _ Hw) He He' En) as ->.
  destruct (map_KI_app_inv _ _ _ _ E) as [-> _]; [|congruence].
  rewrite (Forall2_len _ _ _ Hd), (Forall2_len _ _ _ Hd'). reflexivity.
Qed.

(** ** Offsets *)
Lemma tot_app s a b : tot s (a ++ b) = tot s a + tot s b.
Proof. unfold tot. now rewrite map_app, list_sum_app. Qed.
Lemma tot_nil s : tot s [] = 0. Proof. reflexivity. Qed.
Lemma tot_map s p s' l : Wf s -> Block s p s' -> incl l (leaves s') -> tot s (map (app p) l) = tot s' l.
Proof.
  intros Hw Hb Hi. unfold tot. f_equal. rewrite map_map. apply map_ext_in. intros i Hin. now rewrite (Block_leaf_sp s p s' i Hw Hb (Hi _ Hin)).
Qed.

(** The index map of a sub-structure, shifted, is the index map of its copy. *)
Definition dm_shift (k : nat) (m : dm nat) : dm nat := DM (dm_sp m) (map (Nat.add k) (dm_nz m)).
Lemma map_add_seq k : forall n a, map (Nat.add k) (seq a n) = seq (k + a) n.
Proof. induction n as [|n IH]; intros a; [reflexivity|]. simpl. rewrite IH. do 2 f_equal. lia. Qed.

Lemma Block_trans s p s' : Block s p s' -> forall q s'', Block s' q s'' -> Block s (p ++ q) s''.
Proof.
  induction 1 as [s e idx s' He Es Hd|s e idx s' p s1 He Es Hd Hb IH]; intros q s'' Hq.
  - simpl. eapply Block_sub; eauto.
  - simpl. rewrite <- app_assoc. eapply Block_sub; eauto.
Qed.

Lemma block_map s c p s' c' l1 l2 ci : Wf s -> casadi_structure s = Ok c -> Block s p s' -> casadi_structure s' = Ok c' ->
  leaves s = l1 ++ map (app p) (leaves s') ++ l2 -> starts_name ci ->
  cmap_get (p ++ ci) (cs_map c) = match cmap_get ci (cs_map c') with Some m => Some (dm_shift (tot s l1) m) | None => None end.
Proof.
  intros Hw Hc Hb Hc' Hs Hci. pose proof (Block_Wf s p s' Hw Hb) as Hw'.
  destruct (cmap_get ci (cs_map c')) as [m|] eqn:Em.
  - destruct (map_keys s' c' ci m Hw' Hc' Em) as [(e & Hl)|(s'' & Hb' & Hne)].
    + destruct (in_split_leaf s' ci e Hw' Hl) as (a & b & Hs'). rewrite (map_leaf s' c' a ci b Hw' Hc' Hs') in Em. injection Em as <-.
      rewrite Hs', map_app in Hs. simpl in Hs.
      rewrite (map_leaf s c (l1 ++ map (app p) a) (p ++ ci) (map (app p) b ++ l2) Hw Hc).
      * f_equal. unfold dm_shift. simpl. rewrite map_add_seq, tot_app, (tot_map s p s' a Hw Hb).
        -- rewrite (Block_leaf_sp s p s' ci Hw Hb); [reflexivity|]. rewrite Hs'. apply in_elt.
        -- rewrite Hs'. apply incl_appl, incl_refl.
      * rewrite Hs, <- !app_assoc. reflexivity.
    + destruct (Block_segment s' ci s'' Hw' Hb') as (a & b & Hs'). rewrite (map_block s' c' ci s'' a b Hw' Hc' Hb' Hne Hs') in Em. injection Em as <-.
      rewrite Hs', !map_app, map_map in Hs.
      rewrite (map_block s c (p ++ ci) s'' (l1 ++ map (app p) a) (map (app p) b ++ l2) Hw Hc (Block_trans _ _ _ Hb _ _ Hb') Hne).
      * f_equal. unfold dm_shift, dm_col. simpl. rewrite map_add_seq, tot_app, (tot_map s p s' a Hw Hb), !seq_length.
        -- reflexivity.
        -- rewrite Hs'. apply incl_appl, incl_refl.
      * rewrite Hs, <- !app_assoc. f_equal. f_equal. f_equal. apply map_ext. intros x. now rewrite app_assoc.
  - destruct (cmap_get (p ++ ci) (cs_map c)) as [v|] eqn:Ev; [|reflexivity]. exfalso.
    destruct (map_keys s c _ v Hw Hc Ev) as [(e & Hl)|(s'' & Hb' & Hne)].
    + apply (Block_Leaf s p s' ci e Hw Hb) in Hl. destruct (map_get_leaf s' c' ci e Hw' Hc' Hl) as (m & Hm & _). congruence.
    + destruct (leaves s'') as [|x l] eqn:El; [contradiction|].
      destruct (proj1 (in_leaves s'' x (Block_Wf _ _ _ Hw Hb'))) as (e & Hx); [rewrite El; now left|].
      pose proof (proj2 (Block_Leaf s (p ++ ci) s'' x e Hw Hb') Hx) as Hl. rewrite <- app_assoc in Hl.
      apply (Block_Leaf s p s' _ e Hw Hb) in Hl. destruct Hci as (n & r & ->).
      destruct (Leaf_prefix_Block s' (KS n :: r) x e Hl (Leaf_starts _ _ _ Hx)) as (s3 & Hb3 & Hx3); [discriminate|].
      destruct (Block_segment s' _ s3 Hw' Hb3) as (a & b & Hs3).
      assert (Hne3 : leaves s3 <> []).
      { intros E. assert (Hin : In x (leaves s3)) by (apply in_leaves; [exact (Block_Wf _ _ _ Hw' Hb3)|eauto]). rewrite E in Hin. destruct Hin. }
      rewrite (map_block s' c' _ s3 a b Hw' Hc' Hb3 Hne3 Hs3) in Em. discriminate.
Qed.
