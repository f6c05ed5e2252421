(** Attributes of prefixed structures (C82). *)
From Verif Require Import PyBase IndexModel DMModel StructModel StructSpec PowerModel PowerSpec
  IndexProofs StructProofs LayoutProofs LayoutThms LayoutExamples DMProofs PowerProofs PowerThms SliceProofs PowerThms2 PowerThms3 PowerThms4
  PowerExamples EntryModel EntrySpec EntryProofs StructsModel StructsSpec StructsThms1 StructsThms2 StructsThms3 StructsThms4 StructsThms5 StructsThms6 StructsThms7 PrefixAttrModel.
Open Scope list_scope.
Open Scope nat_scope.

Section P.
Context {T : Type} (zero : T).

(** [s.prefix[ci]] has all its attributes from [s.prefix[ci]()] exactly when this is a dense
    column of the size of the whole structure. *)
Theorem prefix_attr_exact s c (v : list T) ci e M : Wf s -> casadi_structure s = Ok c -> length v = cs_size c ->
  At s ci e -> e_symm e = false ->
  let x := prefix_ (plain_obj c v) (pidx ci) in
  prefix_call zero x = Ok (RMat M) ->
  ((forall (A : Type) (att : dm T -> A), prefix_getattr att x = att M) <-> dm_sp M = sp_dense (cs_size c) 1).
Proof.
  intros Hw Hc Hlen Ha Hsy x Hcall. unfold prefix_getattr, x. cbn [px_obj prefix_ so_cat so_st plain_obj ps_master].
  split.
  - intros H. specialize (H _ (fun m => m)). cbn in H. unfold so_cat in H. cbn in H. subst M. cbn. now rewrite Hlen.
  - intros Hsp A att. f_equal. unfold so_cat. cbn [so_st ps_master].
    unfold prefix_call, x, so_get in Hcall. cbn [px_obj prefix_ px_prefix so_c so_env so_st plain_obj] in Hcall.
    rewrite (cs_struct_eq s c Hw Hc) in Hcall.
    assert (Ho : Obj s c (PState v [] [])) by (split; assumption).
    destruct (cmap_get ci (cs_map c)) as [m|] eqn:Hm.
    + rewrite (getitem_at zero s c _ ci e m Ho Ha Hsy Hm) in Hcall. injection Hcall as <-. cbn [dm_sp vals dm_map] in Hsp.
      destruct (map_ok s c ci m Hw Hc Hm) as (_ & Hok & _ & Hb & start & Hnz).
      rewrite Hsp, nnz_dense, Nat.mul_1_r in Hnz.
      assert (E0 : cs_size c = 0 \/ start = 0).
      { destruct (cs_size c) as [|n] eqn:En; [now left|right]. rewrite Forall_forall in Hb.
        assert (start + n < S n); [|lia]. apply Hb. rewrite Hnz. apply in_seq. lia. }
      destruct m as [sp nz]. cbn [dm_sp dm_nz vals dm_map] in *. subst sp nz. unfold dm_col, vals, dm_map. cbn [dm_sp dm_nz]. rewrite Hlen. f_equal.
      destruct E0 as [E0|E0'].
      * rewrite E0 in *. now destruct v.
      * subst start. rewrite <- Hlen. pose proof (window_read zero [] v []) as W. cbn in W. rewrite app_nil_r in W. now rewrite W.
    + exfalso. unfold getitem in Hcall. rewrite <- (app_nil_r (pidx ci)), (travS_at zero s ci e Ha Hw) in Hcall.
      simpl in Hcall. unfold mwrap, getter in Hcall. simpl in Hcall. rewrite Hm in Hcall. discriminate.
Qed.

(** The views by [squared] and [product] show the matrix, and have its attributes. *)
Theorem view_attr s c s2 c2 (a : dm T) vw0 vw : Wf s -> Wf s2 -> casadi_structure s = Ok c -> casadi_structure s2 = Ok c2 -> DmOk a ->
  dm_shape a = (cs_size c, cs_size c2) -> product_ s c s2 c2 a = Ok vw0 -> Writes zero s s2 (cs_size c) (cs_size c2) vw0 vw ->
  view_call zero vw0 = Ok (RMat a) /\
  exists M, view_call zero vw = Ok (RMat M) /\ dm_sp M = dm_sp a /\
    forall (A : Type) (att : dm T -> A), view_getattr att (dm_nr a) (dm_nc a) vw = att M.
Proof.
  intros Hw Hw2 Hc Hc2 Ha Hsh H Hwr. destruct (product_inv s c s2 c2 a vw0 Hw Hw2 Hc Hc2 Ha Hsh H) as [ct Hv0].
  unfold dm_shape in Hsh. injection Hsh as E1 E2.
  assert (G : forall vw M, PView s s2 (cs_size c) (cs_size c2) ct vw M -> view_call zero vw = Ok (RMat M)).
  { clear. intros vw M [-> Es Hw Hb Hsp Hok]. unfold view_call, so_get. cbn [vw_obj vw_prefix so_c so_env so_st].
    destruct (t_leaf ct _ Es eq_refl eq_refl eq_refl Hw Hb) as (Hat & Hm & Hsz).
    change [PStr (T := T) "t"] with (pidx (T := T) [KS "t"] ++ []). rewrite (get_kind zero (cs_struct ct) ct KNz [] _ [KS "t"] _ [] Hw Hat eq_refl).
    change (pidx (T := T) [KS "t"] ++ []) with (pidx (T := T) [KS "t"]). cbn [entry_t e_sp] in Hm, Hsz. rewrite nnz_dense in Hm, Hsz.
    assert (Hlen : length (dm_nz M) = cs_size ct) by (destruct Hok as [_ ->]; rewrite Hsp, nnz_dense; congruence).
    erewrite (getitem_at zero (cs_struct ct) ct _ [KS "t"]); [|split; eassumption|exact Hat|reflexivity|exact Hm].
    destruct M as [sp nz]. cbn [dm_sp dm_nz ps_master] in *. subst sp. do 2 f_equal. unfold vals, dm_map. cbn [dm_sp dm_nz]. f_equal.
    pose proof (window_read zero [] nz []) as W. cbn in W. rewrite app_nil_r in W. rewrite Hlen in W. now rewrite Hsz in W. }
  split; [now apply G|]. destruct (writes_view zero _ _ _ _ ct _ _ Hwr a Hv0) as [M Hv]. exists M. split; [now apply G|].
  rewrite (pv_sp _ _ _ _ _ _ _ Hv0). split; [exact (pv_sp _ _ _ _ _ _ _ Hv)|].
  intros A att. unfold view_getattr. f_equal. rewrite (pv_eq _ _ _ _ _ _ _ Hv), E1, E2.
  unfold view_matrix. cbn. rewrite <- (pv_sp _ _ _ _ _ _ _ Hv). now destruct M.
Qed.
End P.
