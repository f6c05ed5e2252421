(** [getStruct], [struct_symSX] and [struct_symMX] (C78, C79). *)
From Verif Require Import PyBase IndexModel DMModel StructModel StructSpec PowerModel PowerSpec
  IndexProofs StructProofs LayoutProofs LayoutThms LayoutExamples DMProofs PowerProofs PowerThms SliceProofs PowerThms2 PowerThms3 PowerThms4 PowerThms5
  EntryModel EntrySpec EntryProofs StructsModel StructsSpec StructsThms1 StructsThms2 StructsThms3 StructsThms4 StructsThms5 LabelModel SymModel SymSpec.
Open Scope list_scope.
Open Scope nat_scope.

(** C78 *)
Theorem getStruct_known s e : NoDup (map e_name (s_entries s)) -> In e (s_entries s) ->
  getStruct s (e_name e) = match e_struct e with Some s' => Ok s' | None => Err EException end.
Proof.
  intros Hn He. unfold getStruct. rewrite (s_dict_get s e Hn He). reflexivity.
Qed.
Theorem getStruct_unknown s name : ~ In name (map e_name (s_entries s)) -> getStruct s name = Err EAttr.
Proof.
  intros Hn. unfold getStruct. destruct (dict_get name (s_dict s)) as [e|] eqn:E; [|reflexivity].
  exfalso. apply Hn. apply dict_get_In in E. unfold s_dict in E. apply in_pydict in E. apply in_map_iff in E as (e' & [= <- <-] & He). now apply in_map.
Qed.

Lemma concat_underscored ci : String.concat "_" (map str_ck ci) = underscored ci.
Proof. induction ci as [|k [|k' r] IH]; [reflexivity..|]. simpl in *. now rewrite IH. Qed.

Lemma nodup_inj {A B} (f : A -> B) l x y : NoDup (map f l) -> In x l -> In y l -> f x = f y -> x = y.
Proof.
  induction l as [|a l IH]; intros Hn Hx Hy E; [destruct Hx|]. simpl in Hn. apply NoDup_cons_iff in Hn as [Ha Hn].
  destruct Hx as [<-|Hx], Hy as [<-|Hy]; auto.
  - exfalso. apply Ha. rewrite E. now apply in_map.
  - exfalso. apply Ha. rewrite <- E. now apply in_map.
Qed.

Lemma str_app_nil (a : string) : (a ++ "")%string = a.
Proof. induction a as [|x a IH]; simpl; congruence. Qed.

Lemma sym_names_nth ci n j : j < n -> nth_error (sym_names (underscored ci) n) j = Some (symbol_name ci n j).
Proof.
  intros Hj. unfold sym_names, symbol_name. destruct (n =? 1) eqn:E.
  - apply Nat.eqb_eq in E. subst n. destruct j; [|lia]. simpl. now rewrite str_app_nil.
  - rewrite nth_error_map. rewrite (nth_error_nth' _ 0) by now rewrite seq_length. simpl. rewrite seq_nth by exact Hj. reflexivity.
Qed.
Lemma sym_names_length nm n : length (sym_names nm n) = n.
Proof. unfold sym_names. destruct (n =? 1) eqn:E; [apply Nat.eqb_eq in E; now subst|]. now rewrite map_length, seq_length. Qed.

Lemma ssym_names_ok s : Wf s ->
  ssym_names s = Ok (flat_map (fun ci => sym_names (underscored ci) (sp_nnz (leaf_sp s ci))) (leaves s)).
Proof.
  intros Hw. unfold ssym_names. rewrite traverse_leaves.
  assert (G : forall l, (forall i, In i l -> In i (leaves s)) ->
    rmapM (fun i => let* e := getStructEntryByCanonicalIndex s i in
                             Ok (sym_names (String.concat "_" (map str_ck i)) (sp_nnz (e_sp e)))) l =
    Ok (map (fun ci => sym_names (underscored ci) (sp_nnz (leaf_sp s ci))) l)).
  { induction l as [|i l IH]; intros H; [reflexivity|]. cbn [rmapM map].
    destruct (proj1 (in_leaves s i Hw) (H i (or_introl eq_refl))) as (e & He).
    rewrite (Leaf_get s i e Hw He). cbn [rbind]. rewrite concat_underscored, IH by (intros; apply H; now right). cbn [rbind].
    now rewrite (leaf_sp_e s i e Hw He). }
  rewrite G by auto. cbn [rbind]. now rewrite flat_map_concat_map.
Qed.

Lemma names_length s l : length (flat_map (fun ci => sym_names (underscored ci) (sp_nnz (leaf_sp s ci))) l) = tot s l.
Proof. unfold tot. induction l as [|i l IH]; [reflexivity|]. simpl. rewrite app_length, sym_names_length, IH. reflexivity. Qed.

Section P.
Context {T : Type} (zero : T) (newsym : nat -> string -> T).

Lemma ssym_master_ok s : Wf s -> exists v, ssym_master newsym s = Ok v /\ length v = tot s (leaves s) /\
  forall l1 ci l2 j, leaves s = l1 ++ ci :: l2 -> j < sp_nnz (leaf_sp s ci) ->
    nth_error v (tot s l1 + j) = Some (newsym (tot s l1 + j) (symbol_name ci (sp_nnz (leaf_sp s ci)) j)).
Proof.
  intros Hw. unfold ssym_master. rewrite ssym_names_ok by exact Hw. cbn [rbind]. eexists. split; [reflexivity|]. split.
  - rewrite map_length, combine_length, seq_length, Nat.min_id. apply names_length.
  - intros l1 ci l2 j Hs Hj. rewrite nth_error_map.
    set (ns := flat_map _ (leaves s)).
    assert (E : nth_error ns (tot s l1 + j) = Some (symbol_name ci (sp_nnz (leaf_sp s ci)) j)).
    { unfold ns. rewrite Hs, flat_map_app. rewrite nth_error_app2 by (rewrite names_length; lia). rewrite names_length.
      replace (tot s l1 + j - tot s l1) with j by lia. simpl. rewrite nth_error_app1 by now rewrite sym_names_length. now apply sym_names_nth. }
    assert (L : tot s l1 + j < length ns) by (apply nth_error_Some; congruence).
    assert (C : forall (a : list nat) (b : list string) i x y, nth_error a i = Some x -> nth_error b i = Some y -> nth_error (List.combine a b) i = Some (x, y)).
    { induction a as [|x0 a IH]; intros [|y0 b] [|i] x y; simpl; try discriminate; [congruence|]. apply IH. }
    rewrite (C _ _ _ (tot s l1 + j) (symbol_name ci (sp_nnz (leaf_sp s ci)) j)); [reflexivity| |exact E].
    rewrite (nth_error_nth' _ 0) by now rewrite seq_length. now rewrite seq_nth.
Qed.

Lemma nth_nth_error_d (v : list T) k : nth k v zero = match nth_error v k with Some x => x | None => zero end.
Proof. revert k. induction v as [|x v IH]; intros [|k]; simpl; auto. Qed.

Lemma vec_set_fit v (i : dm nat) (m : dm T) : Forall (fun k => k < length v) (dm_nz i) -> dm_sp i = dm_sp m -> vec_set zero v i m = Ok (vec_set_list v (dm_nz i) (dm_nz m)).
Proof.
  intros Hb Hs. unfold vec_set, vec_assign. rewrite Hs, spy_eqb_refl.
  replace (forallb _ _) with true; [reflexivity|]. symmetry. apply forallb_forall. intros k Hk. apply Nat.ltb_lt. rewrite Forall_forall in Hb. auto.
Qed.

Lemma top_At s (ce : centry T) : In (ce_entry ce) (s_entries s) -> e_dims (ce_entry ce) = [] -> At s [KS (ce_name ce)] (ce_entry ce).
Proof. intros He Hd. apply (At_here s (ce_entry ce) []); [exact He|]. rewrite Hd. constructor. Qed.

Lemma syms_loop s c : Wf s -> casadi_structure s = Ok c -> forall (l : list (centry T)) v v', NoDup (map ce_name l) ->
  (forall ce, In ce l -> In (ce_entry ce) (s_entries s)) -> (forall ce m, In ce l -> ce_sym ce = Some m -> e_dims (ce_entry ce) = []) ->
  length v = cs_size c -> ssym_syms zero s l v = Ok v' ->
  length v' = cs_size c /\
  (forall k, (forall ce i, In ce l -> ce_sym ce <> None -> cmap_get [KS (ce_name ce)] (cs_map c) = Some i -> ~ In k (dm_nz i)) -> nth_error v' k = nth_error v k) /\
  (forall ce m i, In ce l -> ce_sym ce = Some m -> cmap_get [KS (ce_name ce)] (cs_map c) = Some i -> dm_sp i = dm_sp m -> DmOk m ->
     map (fun k => nth k v' zero) (dm_nz i) = dm_nz m).
Proof.
  intros Hw Hc. induction l as [|ce l IH]; intros v v' Hnd Hin Hd Hlen H; simpl in H.
  - injection H as <-. split; [exact Hlen|]. split; [reflexivity|]. intros ce m i [].
  - inversion Hnd as [|? ? Hn Hnd']; subst.
    assert (Hin' : forall ce, In ce l -> In (ce_entry ce) (s_entries s)) by (intros; apply Hin; now right).
    assert (Hd' : forall ce m, In ce l -> ce_sym ce = Some m -> e_dims (ce_entry ce) = []) by (intros; eapply Hd; eauto; now right).
    destruct (ce_sym ce) as [m|] eqn:Es.
    + pose proof (top_At s ce (Hin ce (or_introl eq_refl)) (Hd ce m (or_introl eq_refl) Es)) as Ha.
      change [PStr (ce_name ce)] with (@pidx T [KS (ce_name ce)]) in H. rewrite (i_get_at zero s c _ _ Hw Hc Ha) in H.
      destruct (cmap_get [KS (ce_name ce)] (cs_map c)) as [i|] eqn:Ei; cbn [rbind] in H; [|discriminate].
      destruct (vec_set zero v i m) as [v1|] eqn:Ev; cbn [rbind] in H; [|discriminate].
      destruct (map_ok s c _ _ Hw Hc Ei) as (_ & [_ Hok] & Hnz & Hb & _).
      assert (Hl1 : length v1 = cs_size c) by (rewrite <- Hlen; eapply vec_assign_length; exact Ev).
      destruct (IH v1 v' Hnd' Hin' Hd' Hl1 H) as (A & B & C). split; [exact A|]. split.
      * intros k Hk. rewrite B by (intros ce' i' Hce'; apply Hk; now right). eapply vec_assign_other; [exact Ev|]. apply (Hk ce i); [now left|congruence|exact Ei].
      * intros ce' m' i' [<-|Hce'] Hs' Hi' Hsp Hm'; [|eapply C; eauto]. rewrite Es in Hs'. injection Hs' as <-. rewrite Ei in Hi'. injection Hi' as <-.
        rewrite vec_set_fit in Ev; [|now rewrite Hlen|exact Hsp]. injection Ev as <-.
        transitivity (map (fun k => nth k (vec_set_list v (dm_nz i) (dm_nz m)) zero) (dm_nz i)).
        -- apply map_ext_in. intros k Hk. assert (E : nth_error v' k = nth_error (vec_set_list v (dm_nz i) (dm_nz m)) k).
           { apply B. intros ce' i' Hce' _ Hi' Hki. eapply (at_disjoint s c _ _ _ _ k Hw Hc Ei Hi'); eauto. simpl. intros r r' [= E _]. apply Hn. rewrite E. now apply in_map. }
           rewrite !(nth_nth_error_d _ k). now rewrite E.
        -- apply vec_set_list_vals; [exact Hnz|now rewrite Hlen|]. destruct Hm' as [_ Hm']. rewrite Hok, Hm'. now rewrite Hsp.
    + destruct (IH v v' Hnd' Hin' Hd' Hlen H) as (A & B & C). split; [exact A|]. split.
      * intros k Hk. apply B. intros ce' i' Hce'. apply Hk. now right.
      * intros ce' m' i' [<-|Hce'] Hs'; [congruence|]. eapply C; eauto.
Qed.

Lemma fits_index s c (ce : centry T) m : Wf s -> casadi_structure s = Ok c -> In (ce_entry ce) (s_entries s) -> sym_fits ce m ->
  exists i, cmap_get [KS (ce_name ce)] (cs_map c) = Some i /\ dm_sp i = dm_sp m.
Proof.
  intros Hw Hc Hin (Hd & _ & _ & _ & [[Hp Hsp]|(s' & n & Hst & (c' & Hc' & Hn) & (ci & e & Hl) & Hsp)]).
  - assert (Hleaf : Leaf s [KS (ce_name ce)] (ce_entry ce)) by (apply (Leaf_prim s (ce_entry ce) []); [exact Hin|exact Hp|rewrite Hd; constructor]).
    destruct (map_get_leaf s c _ _ Hw Hc Hleaf) as (i & Ei & Es). exists i. split; [exact Ei|congruence].
  - assert (Hb : Block s [KS (ce_name ce)] s') by (apply (Block_here s (ce_entry ce) []); [exact Hin|exact Hst|rewrite Hd; constructor]).
    pose proof (Block_Wf _ _ _ Hw Hb) as Hw'. destruct (Block_segment s _ s' Hw Hb) as (l1 & l2 & Hs).
    assert (Hne : leaves s' <> []) by (intros E; assert (In ci (leaves s')) by (apply in_leaves; eauto); rewrite E in *; contradiction).
    rewrite (map_block s c _ s' l1 l2 Hw Hc Hb Hne Hs). eexists. split; [reflexivity|]. rewrite Hsp. cbn [dm_col dm_sp]. rewrite seq_length. f_equal.
    destruct (casadi_structure_ok s' Hw') as (c0 & Hc0 & _ & Hz & _). congruence.
Qed.

Lemma syms_run s c : Wf s -> casadi_structure s = Ok c -> forall (l : list (centry T)) v,
  (forall ce, In ce l -> In (ce_entry ce) (s_entries s)) -> (forall ce m, In ce l -> ce_sym ce = Some m -> sym_fits ce m) ->
  length v = cs_size c -> exists v', ssym_syms zero s l v = Ok v'.
Proof.
  intros Hw Hc. induction l as [|ce l IH]; intros v Hin Hf Hlen; simpl; [eauto|].
  assert (Hin' : forall ce, In ce l -> In (ce_entry ce) (s_entries s)) by (intros; apply Hin; now right).
  assert (Hf' : forall ce m, In ce l -> ce_sym ce = Some m -> sym_fits ce m) by (intros; apply Hf; auto; now right).
  destruct (ce_sym ce) as [m|] eqn:Es; [|auto].
  destruct (fits_index s c ce m Hw Hc (Hin ce (or_introl eq_refl)) (Hf ce m (or_introl eq_refl) Es)) as (i & Ei & Hsp).
  pose proof (top_At s ce (Hin ce (or_introl eq_refl)) (proj1 (Hf ce m (or_introl eq_refl) Es))) as Ha.
  change [PStr (ce_name ce)] with (@pidx T [KS (ce_name ce)]). rewrite (i_get_at zero s c _ _ Hw Hc Ha), Ei. cbn [rbind].
  destruct (map_ok s c _ _ Hw Hc Ei) as (_ & _ & _ & Hb & _). rewrite vec_set_fit; [|now rewrite Hlen|exact Hsp]. cbn [rbind].
  apply IH; auto. now rewrite vec_set_list_length.
Qed.

(** ** C79 *)
Lemma symSX_inv l order (o : sobj T) : items_ok l -> OrderOk l order -> (forall ce m, In ce (arg_entries l) -> ce_sym ce = Some m -> e_dims (ce_entry ce) = []) ->
  struct_symSX zero newsym l order = Ok o ->
  exists v, let s := cs_struct (so_c o) in let c := so_c o in
    Wf s /\ casadi_structure s = Ok c /\ s_entries s = map ce_entry (arg_entries l) /\
    ssym_master newsym s = Ok v /\ ssym_syms zero s (arg_entries l) v = Ok (so_cat o) /\ so_env o = num_env c /\ so_st o = PState (so_cat o) [] [] /\
    (forall ce, In ce (arg_entries l) -> ce_expr ce = None).
Proof.
  intros Hit Hor Hd H. unfold struct_symSX in H. destruct (struct_ l order) as [[el c]|] eqn:Es; [|discriminate]. cbn [rbind] in H.
  destruct (proj2 (struct_builds_order l order Hit Hor) el c Es) as (Hw & Hc & Eel & Hent & _). rewrite Eel in H.
  destruct (existsb has_expr (arg_entries l)) eqn:Ex; [discriminate|].
  destruct (ssym_master newsym (cs_struct c)) as [v|] eqn:Ev; cbn [rbind] in H; [|discriminate].
  destruct (ssym_syms zero (cs_struct c) (arg_entries l) v) as [v'|] eqn:Ev'; cbn [rbind] in H; [|discriminate]. injection H as <-.
  exists v. cbn [so_c so_env so_st so_cat ps_master]. repeat split; auto.
  intros ce Hce. destruct (ce_expr ce) eqn:E; [|reflexivity]. exfalso.
  assert (X : existsb has_expr (arg_entries l) = true) by (apply existsb_exists; exists ce; unfold has_expr; now rewrite E). congruence.
Qed.

Lemma names_nodup s (l : list (centry T)) : Wf s -> s_entries s = map ce_entry l -> NoDup (map ce_name l).
Proof. intros Hw He. pose proof (Wf_NoDup _ Hw) as H. rewrite He, map_map in H. exact H. Qed.

Theorem symSX_new l order (o : sobj T) : items_ok l -> OrderOk l order -> (forall ce m, In ce (arg_entries l) -> ce_sym ce = Some m -> e_dims (ce_entry ce) = []) ->
  struct_symSX zero newsym l order = Ok o ->
  length (so_cat o) = cs_size (so_c o) /\
  forall ce ci e m j k, In ce (arg_entries l) -> ce_sym ce = None -> Leaf (cs_struct (so_c o)) (KS (ce_name ce) :: ci) e ->
    i_get zero (cs_struct (so_c o)) (pidx (KS (ce_name ce) :: ci)) = Ok (RIdx m) -> nth_error (dm_nz m) j = Some k ->
    nth_error (so_cat o) k = Some (newsym k (symbol_name (KS (ce_name ce) :: ci) (sp_nnz (e_sp e)) j)).
Proof.
  intros Hit Hor Hd H. destruct (symSX_inv l order o Hit Hor Hd H) as (v & Hw & Hc & Hent & Hv & Hs & _ & _ & _). set (s := cs_struct (so_c o)) in *. set (c := so_c o) in *.
  destruct (ssym_master_ok s Hw) as (v0 & Ev & Hlen & Hn). rewrite Hv in Ev. injection Ev as <-.
  assert (Hsz : cs_size c = tot s (leaves s)).
  { destruct (casadi_structure_ok s Hw) as (c' & Hc' & _ & Hz & _). congruence. }
  destruct (syms_loop s c Hw Hc (arg_entries l) v (so_cat o)) as (A & B & _); auto.
  { eapply names_nodup; eauto. } { intros ce Hce. rewrite Hent. now apply in_map. } { congruence. }
  split; [exact A|]. intros ce ci e m j k Hce Hsy Hl Hi Hj.
  destruct (in_split_leaf s _ e Hw Hl) as (l1 & l2 & Hsp).
  pose proof (i_get_inv zero s c _ e m Hw Hc (proj1 (Leaf_At _ _ _ Hl)) Hi) as Em.
  rewrite B.
  - pose proof (map_leaf s c l1 _ l2 Hw Hc Hsp) as Em'. rewrite Em in Em'. injection Em' as ->. cbn [dm_nz] in Hj.
    pose proof (leaf_sp_e s _ e Hw Hl) as El.
    assert (Hjn : j < sp_nnz (leaf_sp s (KS (ce_name ce) :: ci))) by (rewrite <- (seq_length (sp_nnz (leaf_sp s (KS (ce_name ce) :: ci))) (tot s l1)); apply nth_error_Some; congruence).
    rewrite (nth_error_nth' _ 0) in Hj by now rewrite seq_length. rewrite seq_nth in Hj by exact Hjn. injection Hj as <-.
    rewrite <- El. now apply (Hn l1 _ l2).
  - intros ce' i' Hce' Hsy' Hi' Hk. eapply (at_disjoint s c _ _ _ _ k Hw Hc Em Hi'); [|eapply nth_error_In; eauto|exact Hk].
    intros r r' E. simpl in E. injection E as E _. assert (ce = ce'); [|subst; congruence].
    eapply (nodup_inj ce_name); eauto. eapply names_nodup; eauto.
Qed.

Theorem symSX_given l order (o : sobj T) : items_ok l -> OrderOk l order -> (forall ce m, In ce (arg_entries l) -> ce_sym ce = Some m -> e_dims (ce_entry ce) = []) ->
  struct_symSX zero newsym l order = Ok o ->
  forall ce m, In ce (arg_entries l) -> ce_sym ce = Some m -> sym_fits ce m -> so_get zero o [PStr (ce_name ce)] = Ok (RMat m).
Proof.
  intros Hit Hor Hd H ce m Hce Hsy Hf. destruct (symSX_inv l order o Hit Hor Hd H) as (v & Hw & Hc & Hent & Hv & Hs & He & Hst & _). set (s := cs_struct (so_c o)) in *. set (c := so_c o) in *.
  destruct (ssym_master_ok s Hw) as (v0 & Ev & Hlen & _). rewrite Hv in Ev. injection Ev as <-.
  assert (Hsz : cs_size c = tot s (leaves s)).
  { destruct (casadi_structure_ok s Hw) as (c' & Hc' & _ & Hz & _). congruence. }
  assert (Hin : forall ce, In ce (arg_entries l) -> In (ce_entry ce) (s_entries s)) by (intros; rewrite Hent; now apply in_map).
  destruct (syms_loop s c Hw Hc (arg_entries l) v (so_cat o)) as (A & _ & C); auto.
  { eapply names_nodup; eauto. } { congruence. }
  destruct (fits_index s c ce m Hw Hc (Hin ce Hce) Hf) as (i & Ei & Hsp).
  assert (Ho : Obj s c (so_st o)) by (split; [exact Hw|exact Hc|rewrite Hst; exact A]).
  destruct Hf as (Hdm & Hsm & Hm1 & Hm2 & _).
  unfold so_get. rewrite He. change [PStr (ce_name ce)] with (@pidx T [KS (ce_name ce)]).
  fold c. change (cs_struct c) with s. rewrite (getitem_at zero s c (so_st o) _ _ i Ho (top_At s ce (Hin ce Hce) Hdm) Hsm Ei). do 2 f_equal.
  unfold vals, dm_map. rewrite Hsp. fold (so_cat o). rewrite (C ce m i Hce Hsy Ei Hsp (conj Hm1 Hm2)). now destruct m.
Qed.

Theorem symSX_accepts l order : items_ok l -> OrderOk l order -> (forall ce m, In ce (arg_entries l) -> ce_sym ce = Some m -> sym_fits ce m) ->
  ((exists o, struct_symSX zero newsym l order = Ok o) <->
   NoDup (arg_names l) /\ (order = None \/ ~ grouped l) /\ forall ce, In ce (arg_entries l) -> ce_expr ce = None).
Proof.
  intros Hit Hor Hf. assert (Hd : forall ce m, In ce (arg_entries l) -> ce_sym ce = Some m -> e_dims (ce_entry ce) = []) by (intros; eapply Hf; eauto).
  split.
  - intros (o & H). destruct (symSX_inv l order o Hit Hor Hd H) as (v & _ & _ & _ & _ & _ & _ & _ & Hx). apply and_assoc. split; [|exact Hx].
    apply (proj1 (struct_builds_order l order Hit Hor)). unfold struct_symSX in H. destruct (struct_ l order) as [[el c]|]; [eauto|discriminate].
  - intros (Hn & Hg & Hx). destruct (proj2 (proj1 (struct_builds_order l order Hit Hor)) (conj Hn Hg)) as (el & c & Es).
    destruct (proj2 (struct_builds_order l order Hit Hor) el c Es) as (Hw & Hc & Eel & Hent & _).
    unfold struct_symSX. rewrite Es. cbn [rbind]. rewrite Eel.
    assert (E : existsb has_expr (arg_entries l) = false).
    { destruct (existsb has_expr (arg_entries l)) eqn:E; [|reflexivity]. apply existsb_exists in E as (ce & Hce & E). unfold has_expr in E. now rewrite (Hx ce Hce) in E. }
    rewrite E. destruct (ssym_master_ok (cs_struct c) Hw) as (v & -> & Hlen & _). cbn [rbind].
    destruct (syms_run (cs_struct c) c Hw Hc (arg_entries l) v) as (v' & ->); auto.
    + intros ce Hce. rewrite Hent. now apply in_map.
    + destruct (casadi_structure_ok _ Hw) as (c' & Hc' & _ & Hz & _). congruence.
    + cbn [rbind]. eauto.
Qed.

Theorem symSX_distinct l order (o : sobj T) : items_ok l -> OrderOk l order -> (forall ce, In ce (arg_entries l) -> ce_sym ce = None) ->
  (forall i j a b, newsym i a = newsym j b -> i = j) -> struct_symSX zero newsym l order = Ok o ->
  NoDup (so_cat o) /\ length (so_cat o) = cs_size (so_c o).
Proof.
  intros Hit Hor Hns Hinj H. assert (Hd : forall ce m, In ce (arg_entries l) -> ce_sym ce = Some m -> e_dims (ce_entry ce) = []) by (intros ce m Hce; rewrite (Hns ce Hce); discriminate).
  split; [|now apply (symSX_new l order o)].
  destruct (symSX_inv l order o Hit Hor Hd H) as (v & Hw & Hc & Hent & Hv & Hs & He & Hst & _).
  assert (E : forall l v, (forall ce, In ce l -> ce_sym ce = None) -> ssym_syms zero (cs_struct (so_c o)) l v = Ok v).
  { clear. induction l as [|ce l IH]; intros v Hn; [reflexivity|]. simpl. rewrite (Hn ce (or_introl eq_refl)). apply IH. intros; apply Hn; now right. }
  rewrite E in Hs by exact Hns. injection Hs as <-. unfold ssym_master in Hv. destruct (ssym_names _) as [ns|]; [|discriminate]. injection Hv as <-.
  assert (G : forall ns b, NoDup (map (fun x => newsym (fst x) (snd x)) (List.combine (seq b (length ns)) ns)) /\
     forall x, In x (map (fun x => newsym (fst x) (snd x)) (List.combine (seq b (length ns)) ns)) -> exists k a, b <= k /\ x = newsym k a).
  { clear -Hinj. induction ns as [|n ns IH]; intros b; [split; [constructor|intros x []]|]. destruct (IH (S b)) as [A B]. simpl. split.
    - constructor; [|exact A]. intros Hin. destruct (B _ Hin) as (k & a & Hk & E). apply Hinj in E. lia.
    - intros x [<-|Hx]; [eauto|]. destruct (B x Hx) as (k & a & Hk & ->). exists k, a. split; [lia|reflexivity]. }
  apply G.
Qed.

(** Entries made by [entry(name, sym=X)]. *)
Theorem entry_sym_fits name (m : dm T) ce : SpOk (dm_sp m) -> length (dm_nz m) = sp_nnz (dm_sp m) ->
  entry_init name [("sym"%string, VSX true m)] = Ok ce -> ce_sym ce = Some m /\ ce_name ce = name /\ sym_fits ce m.
Proof.
  intros H1 H2 H. injection H as <-. split; [reflexivity|]. split; [reflexivity|]. split; [reflexivity|]. split; [reflexivity|]. split; [exact H1|]. split; [exact H2|]. left. auto.
Qed.
Theorem entry_symstruct_fits name s' n (m : dm T) ce : SizeOf s' n -> (exists ci e, Leaf s' ci e) -> dm_sp m = sp_dense n 1 -> length (dm_nz m) = n ->
  entry_init name [("sym"%string, VStructured s' m)] = Ok ce -> ce_sym ce = Some m /\ ce_name ce = name /\ e_struct (ce_entry ce) = Some s' /\ sym_fits ce m.
Proof.
  intros Hs Hl Hsp Hlen H. injection H as <-. split; [reflexivity|]. split; [reflexivity|]. split; [reflexivity|]. split; [reflexivity|]. split; [reflexivity|].
  split; [rewrite Hsp; apply SpOk_dense|]. split; [rewrite Hsp, Hlen; unfold sp_nnz; simpl; rewrite all_pos_length; lia|]. right. exists s', n. auto.
Qed.

(** [struct_symMX] *)
Theorem symMX_accepts (V : list T) l order el c : items_ok l -> OrderOk l order -> struct_ l order = Ok (el, c) -> length V = cs_size c ->
  ((exists o, struct_symMX V l order = Ok o) <-> forall ce, In ce (arg_entries l) -> ce_expr ce = None /\ ce_sym ce = None) /\
  (forall o, struct_symMX V l order = Ok o -> so_cat o = V /\ so_c o = c).
Proof.
  intros Hit Hor Es Hlen. destruct (proj2 (struct_builds_order l order Hit Hor) el c Es) as (Hw & Hc & Eel & _).
  destruct (mx_fast_path zero (cs_struct c) c V Hw Hc Hlen) as (o0 & Eo & Hcat & _).
  assert (Hoc : so_c o0 = c).
  { unfold mx_struct in Eo. destruct (negb _); [discriminate|]. destruct (buildMap _ _); [|discriminate]. now injection Eo as <-. }
  unfold struct_symMX. rewrite Es. cbn [rbind]. rewrite Eel. split.
  - split.
    + intros (o & H) ce Hce. destruct (existsb has_expr (arg_entries l)) eqn:E1; [discriminate|]. destruct (existsb has_sym (arg_entries l)) eqn:E2; [discriminate|].
      split.
      * destruct (ce_expr ce) eqn:E; [|reflexivity]. assert (X : existsb has_expr (arg_entries l) = true) by (apply existsb_exists; exists ce; unfold has_expr; now rewrite E). congruence.
      * destruct (ce_sym ce) eqn:E; [|reflexivity]. assert (X : existsb has_sym (arg_entries l) = true) by (apply existsb_exists; exists ce; unfold has_sym; now rewrite E). congruence.
    + intros Hx. destruct (existsb has_expr (arg_entries l)) eqn:E1.
      { apply existsb_exists in E1 as (ce & Hce & E). unfold has_expr in E. now rewrite (proj1 (Hx ce Hce)) in E. }
      destruct (existsb has_sym (arg_entries l)) eqn:E2; [|eauto].
      apply existsb_exists in E2 as (ce & Hce & E). unfold has_sym in E. now rewrite (proj2 (Hx ce Hce)) in E.
  - intros o. destruct (existsb has_expr (arg_entries l)); [discriminate|]. destruct (existsb has_sym (arg_entries l)); [discriminate|].
    rewrite Eo. intros [= <-]. auto.
Qed.
End P.
