(** The objects stored by [buildMap] (C24) and struct_MX_mutable (C25). *)
From Verif Require Import PyBase IndexModel DMModel StructModel StructSpec PowerModel PowerSpec
  IndexProofs StructProofs LayoutProofs LayoutThms LayoutExamples DMProofs PowerProofs PowerThms PowerThms2 PowerThms3 PowerThms4 PowerThms5
  EntryModel StructsModel StructsSpec StructsThms1 StructsThms2 StructsThms4.
Open Scope nat_scope.

Section P.
Context {T : Type} (zero : T).
Notation rval := (rval T).
Notation pel := (pel T).
Notation pay := (pay T).
Notation env := (env T).
Notation pstate := (pstate T).

Lemma build_size s c : Wf s -> casadi_structure s = Ok c -> cs_size c = tot s (leaves s).
Proof. intros Hw Hc. destruct (casadi_structure_ok s Hw) as (c' & Hc' & _ & Hs & _). congruence. Qed.

Lemma buildS_eq es order : buildS (T := T) (mkStruct es order) =
  build_items (pydict (map (fun e => (e_name e, buildE e)) es)) (tops (mkStruct es order)).
Proof. reflexivity. Qed.
Lemma nnz_dense_col n : sp_nnz (sp_dense n 1) = n.
Proof. unfold sp_nnz. simpl. rewrite all_pos_length. lia. Qed.

Lemma vertsplit_cons (v : list T) n rest : length v = n + list_sum rest ->
  vertsplit v (n :: rest) = let* cs := vertsplit (skipn n v) rest in Ok (firstn n v :: cs).
Proof.
  intros H. destruct rest as [|m rest]; simpl in H.
  - simpl. rewrite skipn_all2 by lia. simpl. now rewrite firstn_all2 by lia.
  - cbn [vertsplit]. destruct (Nat.leb_spec n (length v)); [reflexivity|lia].
Qed.

Lemma vals_seq (v : list T) sp off n : off + n <= length v ->
  vals zero v (DM sp (seq off n)) = DM sp (firstn n (skipn off v)).
Proof.
  intros H. unfold vals, dm_map. simpl. f_equal. apply (nth_ext _ _ zero zero).
  - rewrite map_length, seq_length, firstn_length, skipn_length. lia.
  - intros i Hi. rewrite map_length, seq_length in Hi.
    rewrite (nth_indep _ zero (nth (off + n) v zero)) by (rewrite map_length, seq_length; lia).
    rewrite (map_nth (fun k => nth k v zero)). rewrite seq_nth by lia. rewrite <- (firstn_skipn off v) at 1.
    rewrite app_nth2 by (rewrite firstn_length; lia). rewrite firstn_length. replace (off + i - Nat.min off (length v)) with i by lia.
    rewrite <- (firstn_skipn n (skipn off v)) at 1. rewrite app_nth1; [reflexivity|]. rewrite firstn_length, skipn_length. lia.
Qed.
Lemma vals_shift (v : list T) m off n : Forall (fun k => k < n) (dm_nz m) -> off + n <= length v ->
  vals zero (firstn n (skipn off v)) m = vals zero v (dm_shift off m).
Proof.
  intros Hm H. unfold vals, dm_map, dm_shift. simpl. f_equal. rewrite map_map. apply map_ext_in. intros k Hk.
  rewrite Forall_forall in Hm. specialize (Hm k Hk).
  rewrite <- (firstn_skipn off v) at 2. rewrite app_nth2 by (rewrite firstn_length; lia). rewrite firstn_length.
  replace (off + k - Nat.min off (length v)) with k by lia.
  rewrite <- (firstn_skipn n (skipn off v)) at 2. rewrite app_nth1; [reflexivity|]. rewrite firstn_length, skipn_length. lia.
Qed.

Lemma skipn_add (v : list T) a : forall b, skipn b (skipn a v) = skipn (a + b) v.
Proof. revert v. induction a as [|a IH]; intros [|x v] b; simpl; auto. now destruct b. Qed.

Definition item_of (s : structure) (t : cidx) (x : cidx * (spy * (list T -> cidx -> res (bmap (T := T))))) : Prop :=
  exists e idx, In e (s_entries s) /\ InDims idx (e_dims e) /\ t = top (e_name e) idx /\ x = (t, buildE e).

Lemma item_size s t x : Wf s -> item_of s t x -> sp_nnz (fst (snd x)) = tot s (expand s t).
Proof.
  intros Hw (e & idx & He & Hd & -> & ->). rewrite (expand_top s e idx Hw He). cbn [fst snd]. destruct e as [n d [s'|] sp sy og sh]; unfold ch; cbn [e_struct].
  - destruct (casadi_structure_ok s' (Wf_sub s _ s' Hw He eq_refl)) as (c' & Hc' & _ & Hs & _). cbn [buildE fst]. rewrite Hc', nnz_dense_col, Hs.
    symmetry. apply (tot_block s _ s' Hw). exact (Block_here s _ idx s' He eq_refl Hd).
  - simpl. unfold tot. simpl. rewrite app_nil_r, Nat.add_0_r. f_equal. symmetry.
    exact (leaf_sp_e s _ _ Hw (Leaf_prim s _ idx He eq_refl Hd)).
Qed.

Lemma cmap_get_none {V} k (d : list (cidx * V)) : (forall k' v, In (k', v) d -> k' <> k) -> cmap_get k d = None.
Proof.
  intros H. apply cmap_get_None. intros Hin. apply in_map_iff in Hin as ((k' & v) & E & Hin). simpl in E. exact (H _ _ Hin E).
Qed.

Lemma classic_nil {A} (l : list A) : l = [] \/ l <> []. Proof. destruct l; [now left|now right]. Qed.
Definition Built (s : structure) (c : cstruct) (master : list T) (pre : cidx) (pm : bmap (T := T)) : Prop :=
  (forall k v, In (k, v) pm -> exists t r, In t (tops s) /\ k = pre ++ t ++ r) /\
  (forall ci m, cmap_get ci (cs_map c) = Some m -> cmap_get (pre ++ ci) pm = Some (vals zero master m)).

Lemma prim_alone s c t r e m : Wf s -> casadi_structure s = Ok c -> Leaf s t e -> cmap_get (t ++ r) (cs_map c) = Some m -> r = [].
Proof.
  intros Hw Hc Hl Hm. destruct (map_keys s c _ m Hw Hc Hm) as [(e' & Hl')|(s'' & Hb & Hne)].
  - exact (Leaf_prefix_free s t r e e' Hw Hl Hl').
  - apply (leaves_nonempty s'' (Block_Wf _ _ _ Hw Hb)) in Hne as (x & e' & Hx).
    apply (Block_Leaf s _ s'' x e' Hw Hb) in Hx. rewrite <- app_assoc in Hx.
    pose proof (Leaf_prefix_free s t (r ++ x) e e' Hw Hl Hx) as E. now destruct r.
Qed.

Lemma build_item s c master pre e idx l1 l2 :
  (forall s' c' k pre', e_struct e = Some s' -> casadi_structure s' = Ok c' -> length k = cs_size c' ->
     exists pm, buildS (T := T) s' k pre' = Ok pm /\ Built s' c' k pre' pm) ->
  Wf s -> casadi_structure s = Ok c -> In e (s_entries s) -> InDims idx (e_dims e) ->
  leaves s = l1 ++ expand s (top (e_name e) idx) ++ l2 -> length master = cs_size c ->
  let t := top (e_name e) idx in
  let k := firstn (tot s (expand s t)) (skipn (tot s l1) master) in
  exists sub m, snd (buildE (T := T) e) k (pre ++ t) = Ok sub /\ with_sparsity (fst (buildE (T := T) e)) k = Ok m /\
    (forall k' v, In (k', v) sub -> exists r, r <> [] /\ k' = pre ++ t ++ r) /\
    (forall r m0, cmap_get (t ++ r) (cs_map c) = Some m0 -> r = [] \/ starts_name r ->
       cmap_get (pre ++ t ++ r) (sub ++ [(pre ++ t, m)]) = Some (vals zero master m0)).
Proof.
  intros IH Hw Hc He Hd Hs Hlen t k.
  assert (Hsz : tot s l1 + tot s (expand s t) <= length master).
  { rewrite Hlen, (build_size s c Hw Hc), Hs, !tot_app. unfold t. lia. }
  assert (Hk : length k = tot s (expand s t)) by (unfold k; rewrite firstn_length, skipn_length; lia).
  assert (Hx : sp_nnz (fst (buildE (T := T) e)) = tot s (expand s t)).
  { change (fst (buildE (T := T) e)) with (fst (snd (t, buildE (T := T) e))). apply item_size; [exact Hw|]. exists e, idx. auto. }
  assert (Hsp : with_sparsity (fst (buildE (T := T) e)) k = Ok (DM (fst (buildE (T := T) e)) k)).
  { unfold with_sparsity. rewrite Hk, Hx, Nat.eqb_refl. reflexivity. }
  rewrite Hsp. unfold t in Hs. rewrite (expand_top s e idx Hw He) in Hs. fold t in Hs.
  destruct (e_struct e) as [s'|] eqn:Es.
  - pose proof (Wf_sub s e s' Hw He Es) as Hw'. destruct (casadi_structure_ok s' Hw') as (c' & Hc' & _ & Hs' & _).
    assert (Hb : Block s t s') by (exact (Block_here s e idx s' He Es Hd)).
    unfold ch in Hs. rewrite Es in Hs. pose proof (tot_block s t s' Hw Hb) as Ht.
    assert (Ee : expand s t = map (app t) (leaves s')) by (unfold t; rewrite (expand_top s e idx Hw He); unfold ch; now rewrite Es).
    destruct (IH s' c' k (pre ++ t) eq_refl Hc') as (pm & Hpm & Hkeys & Hget); [rewrite Hk, Ee, Ht; congruence|].
    assert (Ebs : snd (buildE (T := T) e) = buildS s') by (destruct e as [n d st sp sy og sh]; simpl in Es; subst st; reflexivity).
    assert (Ebf : fst (buildE (T := T) e) = sp_dense (cs_size c') 1).
    { destruct e as [n d st sp sy og sh]; simpl in Es; subst st. simpl. now rewrite Hc'. }
    exists pm, (DM (fst (buildE (T := T) e)) k). rewrite Ebs, Hpm. split; [reflexivity|]. split; [reflexivity|].
    assert (Hkeys' : forall k' v, In (k', v) pm -> exists r, r <> [] /\ k' = pre ++ t ++ r).
    { intros k' v Hin. destruct (Hkeys k' v Hin) as (t' & r & Ht' & ->). exists (t' ++ r). split; [|now rewrite <- !app_assoc].
      apply in_tops in Ht' as (e' & idx' & _ & _ & ->); [|exact Hw']. discriminate. }
    split; [exact Hkeys'|]. intros r m0 Hm Hr. rewrite cmap_get_app.
    destruct (classic_nil r) as [->|Hr'].
    + rewrite app_nil_r in *. rewrite cmap_get_none.
      * simpl. rewrite cidx_eqb_refl. f_equal. rewrite Ebf.
        destruct (map_keys s c t m0 Hw Hc Hm) as [(e' & Hl)|(s'' & Hb' & Hne)].
        -- exfalso. destruct (Leaf_At _ _ _ Hl) as [Ha E']. pose proof (At_fun s t e' e Hw Ha (At_here s e idx He Hd)) as ->. congruence.
        -- destruct (Block_At _ _ _ Hb') as (e' & Ha & E'). pose proof (At_fun s t e' e Hw Ha (At_here s e idx He Hd)) as ->.
           rewrite Es in E'. injection E' as <-.
           rewrite (map_block s c t s' l1 l2 Hw Hc Hb' Hne Hs) in Hm. injection Hm as <-.
           unfold dm_col. rewrite seq_length, Hs'. rewrite vals_seq.
           ++ unfold k. now rewrite Ee, Ht.
           ++ rewrite Ee, Ht in Hsz. exact Hsz.
      * intros k' v Hin. destruct (Hkeys' _ _ Hin) as (r & Hne & ->). rewrite app_assoc. intros E. apply Hne.
        rewrite <- (app_nil_r (pre ++ t)) in E at 2. now apply app_inv_head in E.
    + destruct Hr as [->|Hr]; [contradiction|].
      rewrite (block_map s c t s' c' l1 l2 r Hw Hc Hb Hc' Hs Hr) in Hm. destruct (cmap_get r (cs_map c')) as [m'|] eqn:Em'; [|discriminate].
      injection Hm as <-. rewrite app_assoc. rewrite (Hget r m' Em'). f_equal. unfold k. apply vals_shift; [|exact Hsz].
      destruct (map_ok s' c' r m' Hw' Hc' Em') as (_ & _ & _ & Hbd & _). rewrite Ee, Ht, <- Hs'. exact Hbd.
  - assert (Hl : Leaf s t e) by (exact (Leaf_prim s e idx He Es Hd)).
    unfold ch in Hs. rewrite Es in Hs. simpl in Hs. rewrite app_nil_r in Hs.
    assert (Ebs : snd (buildE (T := T) e) = fun _ _ => Ok []) by (destruct e as [n d st sp sy og sh]; simpl in Es; subst st; reflexivity).
    assert (Ebf : fst (buildE (T := T) e) = e_sp e) by (destruct e as [n d st sp sy og sh]; simpl in Es; subst st; reflexivity).
    exists [], (DM (fst (buildE (T := T) e)) k). rewrite Ebs. split; [reflexivity|]. split; [reflexivity|]. split; [intros k' v []|].
    intros r m0 Hm _. pose proof (prim_alone s c t r e m0 Hw Hc Hl Hm) as ->. rewrite app_nil_r in *. simpl. rewrite cidx_eqb_refl. f_equal.
    rewrite (map_leaf s c l1 t l2 Hw Hc Hs) in Hm. injection Hm as <-. rewrite (leaf_sp_e s t e Hw Hl), Ebf.
    rewrite vals_seq; [unfold k; rewrite <- Hx, Ebf; reflexivity|]. rewrite <- Hx, Ebf in Hsz. exact Hsz.
Qed.

Lemma build_list s c master pre :
  (forall e s' c' k pre', In e (s_entries s) -> e_struct e = Some s' -> casadi_structure s' = Ok c' -> length k = cs_size c' ->
     exists pm, buildS (T := T) s' k pre' = Ok pm /\ Built s' c' k pre' pm) ->
  Wf s -> casadi_structure s = Ok c -> length master = cs_size c ->
  forall ts xs l1, incl ts (tops s) -> NoDup ts -> Forall2 (item_of s) ts xs -> leaves s = l1 ++ flat_map (expand s) ts ->
  exists chunks pms,
    vertsplit (skipn (tot s l1) master) (map (fun x => sp_nnz (fst (snd x))) xs) = Ok chunks /\
    rzip (fun x k => let* sub := snd (snd x) k (pre ++ fst x) in
                     let* m := with_sparsity (fst (snd x)) k in
                     Ok (sub ++ [(pre ++ fst x, m)])) xs chunks = Ok pms /\
    (forall k v, In (k, v) (concat pms) -> exists t r, In t ts /\ k = pre ++ t ++ r) /\
    (forall t r m, In t ts -> cmap_get (t ++ r) (cs_map c) = Some m -> r = [] \/ starts_name r ->
       cmap_get (pre ++ t ++ r) (concat pms) = Some (vals zero master m)).
Proof.
  intros IH Hw Hc Hlen. pose proof (build_size s c Hw Hc) as Hsz.
  induction ts as [|t ts IHt]; intros xs l1 Hin Hnd Hxs Hs; inversion Hxs as [|t' x ts' xs' Hx Hxs' E1 E2]; subst.
  - exists [], []. simpl in Hs. rewrite app_nil_r in Hs. rewrite <- Hs, skipn_all2 by lia. simpl. repeat split; intros; contradiction.
  - inversion Hnd as [|t0 ts0 Hnt Hnd']; subst. pose proof (item_size s t x Hw Hx) as Hxsz.
    destruct Hx as (e & idx & He & Hd & -> & ->). set (t := top (e_name e) idx) in *. cbn [flat_map] in Hs.
    destruct (build_item s c master pre e idx l1 (flat_map (expand s) ts)) as (sub & m & Hsub & Hm & Hkeys & Hget); auto.
    { intros s' c' k pre'. apply IH. exact He. }
    fold t in Hsub, Hm, Hkeys, Hget.
    destruct (IHt xs' (l1 ++ expand s t)) as (chunks & pms & Hch & Hz & Hk2 & Hg2); auto.
    { intros y Hy. apply Hin. now right. }
    { now rewrite <- app_assoc. }
    cbn [map fst snd] in *. rewrite Hxsz.
    assert (Hrest : length (skipn (tot s (l1 ++ expand s t)) master) = list_sum (map (fun x => sp_nnz (fst (snd x))) xs')).
    { rewrite skipn_length, Hlen, Hsz, Hs, !tot_app.
      assert (Et : tot s (flat_map (expand s) ts) = list_sum (map (fun x => sp_nnz (fst (snd x))) xs')); [|lia].
      clear - Hw Hxs'. induction Hxs' as [|t x ts xs Hx Hxs IH]; [reflexivity|]. cbn [flat_map map]. rewrite tot_app, IH, <- (item_size s t x Hw Hx). reflexivity. }
    rewrite tot_app in Hrest, Hch. rewrite vertsplit_cons.
    2: { rewrite skipn_length in *. pose proof (f_equal (tot s) Hs) as Ht. rewrite !tot_app in Ht. lia. }
    rewrite skipn_add, Hch. cbn [rbind].
    eexists. eexists. split; [reflexivity|]. cbn [rzip fst snd].
    unfold bmap in *. rewrite Hsub. cbn [rbind]. rewrite Hm. cbn [rbind]. rewrite Hz. cbn [rbind].
    split; [reflexivity|]. cbn [concat].
    assert (K1 : forall k v, In (k, v) (sub ++ [(pre ++ t, m)]) -> exists r, k = pre ++ t ++ r).
    { intros k v Hkv. apply in_app_or in Hkv as [Hkv|[[= <- <-]|[]]].
      - destruct (Hkeys _ _ Hkv) as (r & _ & ->). eauto.
      - exists []. now rewrite app_nil_r. }
    split.
    + intros k v Hkv. apply in_app_or in Hkv as [Hkv|Hkv].
      * destruct (K1 _ _ Hkv) as [r ->]. exists t, r. split; [now left|reflexivity].
      * destruct (Hk2 _ _ Hkv) as (t2 & r & Ht2 & ->). exists t2, r. split; [now right|reflexivity].
    + intros t2 r m0 [<-|Ht2] Hm0 Hr; rewrite cmap_get_app.
      * now rewrite (Hget r m0 Hm0 Hr).
      * rewrite cmap_get_none; [now apply Hg2|]. intros k' v Hkv E. destruct (K1 _ _ Hkv) as [r' ->]. apply app_inv_head in E.
        assert (Hne : t <> t2) by (intros ->; contradiction).
        exact (tops_apart s t t2 Hw (Hin _ (or_introl eq_refl)) (Hin _ (or_intror Ht2)) Hne r' r E).
Qed.

Theorem build_ok s : Wf s -> forall c master pre, casadi_structure s = Ok c -> length master = cs_size c ->
  exists pm, buildS s master pre = Ok pm /\ Built s c master pre pm.
Proof.
  induction s as [es order IH] using structure_ind2. intros Hw c master pre Hc Hlen.
  pose proof (Wf_NoDup _ Hw) as Hnd. simpl in Hnd. rewrite buildS_eq. unfold build_items. set (s := mkStruct es order) in *.
  set (f := fun it : cidx => match it with
              | KS n :: _ => match dict_get n (pydict (map (fun e => (e_name e, buildE (T := T) e)) es)) with Some x => Ok (it, x) | None => Err EException end
              | _ => Err EException end).
  assert (Hf : forall t, In t (tops s) -> exists x, f t = Ok x).
  { intros t Ht. apply in_tops in Ht as (e & idx & He & Hd & ->); [|exact Hw]. unfold f, top.
    rewrite (dict_map (buildE (T := T)) es _ Hnd). pose proof (s_dict_get s e Hnd He) as E. unfold s_dict in E. simpl in E. rewrite E. eauto. }
  destruct (rmapM_total f (tops s) Hf) as [xs Hxs]. rewrite Hxs. cbn [rbind].
  apply rmapM_Ok in Hxs.
  assert (Hit : Forall2 (item_of s) (tops s) xs).
  { assert (G : forall ts, incl ts (tops s) -> forall xs, Forall2 (fun t x => f t = Ok x) ts xs -> Forall2 (item_of s) ts xs).
    { intros ts Hi xs0 HF. induction HF as [|t x ts xs0 Hx HF IHF]; constructor.
      - assert (Ht := Hi t (or_introl eq_refl)). apply in_tops in Ht as (e & idx & He & Hd & ->); [|exact Hw]. exists e, idx. repeat split; auto.
        unfold f, top in Hx. rewrite (dict_map (buildE (T := T)) es _ Hnd) in Hx. pose proof (s_dict_get s e Hnd He) as E. unfold s_dict in E. simpl in E.
        rewrite E in Hx. now injection Hx as <-.
      - apply IHF. intros y Hy. apply Hi. now right. }
    apply G; [apply incl_refl|exact Hxs]. }
  destruct (build_list s c master pre) with (ts := tops s) (xs := xs) (l1 := @nil cidx) as (chunks & pms & Hch & Hz & Hk & Hg); auto.
  { intros e s' c' k pre' He Es Hc' Hlk. apply (IH e s' He Es); auto. eapply Wf_sub; eauto. }
  { apply incl_refl. }
  { now apply NoDup_tops. }
  { now apply leaves_tops. }
  rewrite tot_nil in Hch. simpl skipn in Hch. rewrite Hch. cbn [rbind]. rewrite Hz. simpl. eexists. split; [reflexivity|]. split; [exact Hk|].
  intros ci m Hm. destruct (map_ok s c ci m Hw Hc Hm) as ((e & Ha) & _).
  inversion Ha as [s0 e0 idx He Hd|s0 e0 idx s' r e' He Es Hd Ha']; subst.
  - rewrite <- (app_nil_r (KS (e_name e) :: map KI idx)). apply Hg; [|now rewrite app_nil_r|now left].
    apply in_tops; [exact Hw|]. exists e, idx. auto.
  - change (KS (e_name e0) :: map KI idx ++ r) with (top (e_name e0) idx ++ r) in *. apply Hg; [|exact Hm|right; eapply At_starts; eauto].
    apply in_tops; [exact Hw|]. exists e0, idx. auto.
Qed.

Definition plain_obj (c : cstruct) (master : list T) : sobj T := SObj c (num_env c) (PState master [] []).

Lemma mx_get s c pm st ci e m r : Wf s -> At s ci e -> cmap_get ci (cs_map c) = Some m -> cmap_get ci pm = Some r ->
  getitem zero s (Env (cs_map c) pm KPlain []) (pidx ci) st =
  if e_symm e then wrapE (rmap RMat (dm_triu2symm r)) else Ok (RMat r).
Proof.
  intros Hw Ha Hm Hr. unfold getitem. rewrite <- (app_nil_r (pidx ci)), (travS_at zero s ci e Ha Hw).
  simpl. unfold mwrap, getter. simpl. rewrite Hm, Hr.
  destruct (e_symm e); [|reflexivity]. unfold mlift. destruct (dm_triu2symm r); reflexivity.
Qed.

(** C24 *)
Theorem mx_fast_path s c (master : list T) : Wf s -> casadi_structure s = Ok c -> length master = cs_size c ->
  exists o, mx_struct c master = Ok o /\ so_cat o = master /\
    (forall ci e m, At s ci e -> e_symm e = false -> i_get zero s (pidx ci) = Ok (RIdx m) ->
      so_get zero o (pidx ci) = Ok (RMat (DM (dm_sp m) (map (fun k => nth k master zero) (dm_nz m))))) /\
    (forall ci e n orig, At s ci e -> SymmEntry e n orig ->
      so_get zero o (pidx ci) = so_get zero (plain_obj c master) (pidx ci)).
Proof.
  intros Hw Hc Hlen. destruct (build_ok s Hw c master [] Hc Hlen) as (pm & Hpm & _ & Hget).
  pose proof (cs_struct_eq s c Hw Hc) as Es.
  exists (SObj c (Env (cs_map c) pm KPlain []) (PState master [] [])).
  split. { unfold mx_struct. rewrite Hlen, Nat.eqb_refl. cbn [negb]. unfold buildMap. rewrite Es, Hpm. reflexivity. }
  split; [reflexivity|]. split.
  - intros ci e m Ha Hs Hi. rewrite (i_get_at zero s c ci e Hw Hc Ha) in Hi. destruct (cmap_get ci (cs_map c)) as [m'|] eqn:Em; [|discriminate].
    injection Hi as ->. unfold so_get. simpl. rewrite Es, (mx_get s c pm _ ci e m _ Hw Ha Em (Hget ci m Em)), Hs. reflexivity.
  - intros ci e n orig Ha Hs.
    destruct (map_get_leaf s c ci e Hw Hc (At_Leaf _ _ _ Ha (se_prim _ _ _ Hs))) as (m & Hm & Hsp).
    unfold so_get. simpl. rewrite Es, (mx_get s c pm _ ci e m _ Hw Ha Hm (Hget ci m Hm)), (se_symm _ _ _ Hs).
    unfold getitem. rewrite <- (app_nil_r (pidx ci)), (travS_at zero s ci e Ha Hw).
    simpl. unfold mwrap, getter. simpl. rewrite Hm.
    rewrite (se_symm _ _ _ Hs). unfold mbind, get_master. simpl.
    destruct (map_ok s c ci m Hw Hc Hm) as (_ & _ & _ & Hbd & _).
    rewrite (vec_get_ok zero).
    + unfold mlift. cbn [rbind]. destruct (dm_triu2symm (vals zero master m)); reflexivity.
    + unfold dm_nr, dm_nc. rewrite Hsp, (se_sp _ _ _ Hs). simpl. destruct (n =? 1); reflexivity.
    + unfold inb. now rewrite Hlen.
Qed.
Theorem mx_bad_length s c (master : list T) : Wf s -> casadi_structure s = Ok c -> length master <> cs_size c ->
  mx_struct c master = Err EException.
Proof. intros Hw Hc Hn. unfold mx_struct. apply Nat.eqb_neq in Hn. rewrite Hn. reflexivity. Qed.

(** C25: writes do arrive in [cat], but full indices keep returning the initial values. *)
Lemma mx_set s c pm (st : pstate) ci e v : Wf s -> At s ci e ->
  setitem zero s (Env (cs_map c) pm KPlain []) (pidx ci) v st = setitem zero s (num_env c) (pidx ci) v st.
Proof.
  intros Hw Ha. unfold setitem. rewrite <- (app_nil_r (pidx ci)), !(travS_at zero s ci e Ha Hw). reflexivity.
Qed.

Theorem mx_write s c (master : list T) o o' ci e m v M r :
  Wf s -> casadi_structure s = Ok c -> mx_struct c master = Ok o ->
  At s ci e -> e_symm e = false -> i_get zero s (pidx ci) = Ok (RIdx m) -> pay_ok v -> to_mtype v = Ok M ->
  so_set zero o (pidx ci) v = (o', Ok r) ->
  Holds zero v (dm_sp m) (DM (dm_sp m) (map (fun k => nth k (so_cat o') zero) (dm_nz m))) /\
  (forall k, ~ In k (dm_nz m) -> nth_error (so_cat o') k = nth_error (so_cat o) k) /\
  (forall ci' e' m', At s ci' e' -> i_get zero s (pidx ci') = Ok (@RIdx T m') -> so_get zero o' (pidx ci') = so_get zero o (pidx ci')).
Proof.
  intros Hw Hc Ho Ha Hs Hi Hv HM H. pose proof (cs_struct_eq s c Hw Hc) as Es. unfold mx_struct in Ho.
  destruct (Nat.eqb_spec (length master) (cs_size c)) as [Hlen|]; [|discriminate]. cbn [negb] in Ho.
  destruct (build_ok s Hw c master [] Hc Hlen) as (pm & Hpm & _ & Hget). unfold buildMap in Ho. rewrite Es, Hpm in Ho. cbn [rbind] in Ho. injection Ho as <-.
  unfold so_set in H. cbn [so_c so_env so_st] in H. rewrite Es, (mx_set s c pm _ ci e v Hw Ha) in H.
  destruct (setitem zero s (num_env c) (pidx ci) v (PState master [] [])) as [st1 r1] eqn:E. injection H as <- ->.
  assert (Hobj : Obj s c (PState master [] [])) by (split; auto).
  destruct (read_after_write zero s c _ ci e m v M st1 r Hobj Ha Hs Hi Hv HM E) as (Hf & R & HR & H1 & H2 & H3).
  destruct (write_one zero s c _ st1 ci e v r Hobj Ha Hs Hv E) as (m1 & M1 & Hm1 & HM1 & _ & Est).
  rewrite (i_get_at zero s c ci e Hw Hc Ha), Hm1 in Hi. injection Hi as ->.
  assert (Hobj' : Obj s c st1) by (subst st1; apply Obj_with_master; [exact Hobj|apply vec_set_list_length]).
  rewrite (getitem_at zero s c st1 ci e m Hobj' Ha Hs Hm1) in HR. injection HR as <-.
  split; [exists M; repeat split; auto; apply Hf|]. split.
  - intros k Hk. unfold so_cat. simpl. rewrite Est. simpl. now apply vec_set_list_other.
  - intros ci' e' m' Ha' Hi'. rewrite (i_get_at zero s c ci' e' Hw Hc Ha') in Hi'. destruct (cmap_get ci' (cs_map c)) as [m2|] eqn:Em2; [|discriminate].
    unfold so_get. cbn [so_c so_env so_st]. rewrite Es. now rewrite !(mx_get s c pm _ ci' e' m2 _ Hw Ha' Em2 (Hget ci' m2 Em2)).
Qed.
End P.
