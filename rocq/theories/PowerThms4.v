(** Lists over repeat dimensions, atomic single writes, extra indices (C18, C19, C28). *)
From Verif Require Import PyBase IndexModel DMModel StructModel StructSpec PowerModel PowerSpec
  IndexProofs StructProofs LayoutProofs LayoutThms LayoutExamples DMProofs PowerProofs PowerThms SliceProofs PowerThms2 PowerThms3.

Section P.
Context {T : Type} (zero : T).
Notation rval := (rval T).
Notation pel := (pel T).
Notation pay := (pay T).
Notation env := (env T).
Notation einfo := (einfo T).
Notation pstate := (pstate T).
Notation clos := (@clos T).

(** ** C18 *)
Lemma mwrap_travD en ei sub dims md pi ci p st : mwrap (travD zero en ei sub dims md pi ci p) st = travD zero en ei sub dims md pi ci p st.
Proof. destruct dims; cbn [travD]; [|destruct pi]; apply mwrap_mwrap. Qed.

Lemma setitem_prefix s (en : env) e ds1 ds2 idx rest p st :
  NoDup (map e_name (s_entries s)) -> In e (s_entries s) -> e_dims e = ds1 ++ ds2 -> length idx = length ds1 ->
  setitem zero s en (PStr (e_name e) :: map (fun i => PInt i) idx ++ rest) p st =
  travD zero en (info zero e) (subT zero e) ds2 MSet rest (KS (e_name e) :: map KI (from_ends ds1 idx)) p st.
Proof.
  intros Hnd He Hd Hl. unfold setitem. rewrite travS_name by assumption. rewrite Hd.
  rewrite mwrap_travD, travD_prefix by exact Hl. apply mwrap_travD.
Qed.

Lemma unpack_item (p : pay) i : payloadUnpack p (KI (Z.of_nat i)) = match item p i with Some q => Ok q | None => Err EException end.
Proof.
  destruct p; try reflexivity. apply unpack_list.
Qed.

Definition write_at (e : entry) (idx : list Z) (rest : list pel) (p : pay) (i : nat) : list pel * option pay :=
  (PStr (e_name e) :: map (fun i => PInt i) idx ++ PInt (Z.of_nat i) :: rest, item p i).

Theorem list_write s (en : env) (st : pstate) e ds1 d ds2 idx rest p :
  Wf s -> In e (s_entries s) -> e_dims e = ds1 ++ d :: ds2 -> length idx = length ds1 -> (0 <= d)%Z ->
  done (setitem zero s en (PStr (e_name e) :: map (fun i => PInt i) idx ++ PSlc slice_all :: rest) p st) =
  write_seq zero s en (map (write_at e idx rest p) (seq 0 (Z.to_nat d))) st.
Proof.
  intros Hw He Hd Hl Hpos. pose proof (Wf_NoDup _ Hw) as Hnd.
  rewrite (setitem_prefix s en e ds1 (d :: ds2)) by assumption. cbn [travD]. rewrite slice_range_all by exact Hpos.
  unfold mwrap. unfold mbind at 1, mlift at 1. unfold pyrange. rewrite map_map. unfold mbind at 1.
  match goal with |- context [mmapM ?g _ _] => set (step := g) end.
  assert (G : forall l st, done (match (match mmapM step (map (fun x => KI (Z.of_nat x)) l) st with
                                        | (s', Ok a) => mret (RList a) s' | (s', Err e0) => (s', Err e0) end) with
                                 | (s', Ok a) => (s', Ok a) | (s', Err _) => (s', Err EException) end)
     = write_seq zero s en (map (write_at e idx rest p) l) st).
  { clear st. induction l as [|i l IH]; intros st; [reflexivity|]. cbn [map write_seq write_at].
    cbn [mmapM]. unfold mbind at 1. unfold step at 1. rewrite unpack_item. destruct (item p i) as [q|]; [|reflexivity].
    unfold mbind at 1, mlift at 1.
    assert (E : setitem zero s en (PStr (e_name e) :: map (fun i => PInt i) idx ++ PInt (Z.of_nat i) :: rest) q st =
       travD zero en (info zero e) (subT zero e) ds2 MSet rest ((KS (e_name e) :: map KI (from_ends ds1 idx)) ++ [KI (canonical (Z.of_nat i) d)]) q st).
    { rewrite (setitem_prefix s en e ds1 (d :: ds2)) by assumption. cbn [travD]. apply mwrap_travD. }
    rewrite E. destruct (travD zero en (info zero e) (subT zero e) ds2 MSet rest _ q st) as [st1 [r|x]]; [|reflexivity].
    rewrite <- IH. unfold mbind. destruct (mmapM step _ st1) as [st2 [rs|x]]; reflexivity. }
  apply G.
Qed.

(** Positions of different indices are disjoint. *)
Lemma at_leaf s c ci m k : Wf s -> casadi_structure s = Ok c -> cmap_get ci (cs_map c) = Some m -> In k (dm_nz m) ->
  exists r ml, In (ci ++ r) (traverseCanonicalIndex s) /\ cmap_get (ci ++ r) (cs_map c) = Some ml /\ In k (dm_nz ml).
Proof.
  intros Hw Hc Hm Hk. destruct (map_keys' s c ci m Hw Hc Hm) as [(e & Hl)|(s' & Hb & Hne)].
  - exists [], m. rewrite app_nil_r. split; [apply (proj2 (canonical_leaves s Hw)); eauto|]. auto.
  - rewrite (block_complete s c ci s' m Hw Hc Hb Hm) in Hk. apply in_flat_map in Hk as (r & Hr & Hk).
    destruct (cmap_get (ci ++ r) (cs_map c)) as [ml|] eqn:E; [|destruct Hk].
    exists r, ml. split; [|auto]. apply (proj2 (canonical_leaves s Hw)).
    apply (proj2 (canonical_leaves s' (Block_Wf _ _ _ Hw Hb))) in Hr as (e & He). exists e. now apply (Block_Leaf s ci s').
Qed.

Lemma at_disjoint s c ci ci' m m' k : Wf s -> casadi_structure s = Ok c ->
  cmap_get ci (cs_map c) = Some m -> cmap_get ci' (cs_map c) = Some m' -> 
  (forall r r', ci ++ r <> ci' ++ r') -> In k (dm_nz m) -> In k (dm_nz m') -> False.
Proof.
  intros Hw Hc Hm Hm' Hne Hk Hk'.
  destruct (at_leaf s c ci m k Hw Hc Hm Hk) as (r & ml & Hin & Hml & Hkl).
  destruct (at_leaf s c ci' m' k Hw Hc Hm' Hk') as (r' & ml' & Hin' & Hml' & Hkl').
  pose proof (flat_partition s c Hw Hc) as Hp. 
  apply (flat_map_NoDup_inj (fun ci => match cmap_get ci (cs_map c) with Some m => dm_nz m | None => [] end)
          (traverseCanonicalIndex s) (ci ++ r) (ci' ++ r') k); auto.
  - rewrite Hp. apply seq_NoDup.
  - now rewrite Hml.
  - now rewrite Hml'.
Qed.

Lemma app_len_neq {A} (a b r r' : list A) : length a = length b -> a <> b -> a ++ r <> b ++ r'.
Proof.
  revert b. induction a as [|x a IH]; intros [|y b] Hl Hne E; try discriminate; [congruence|].
  simpl in *. injection E as -> E. apply (IH b); [lia|congruence|exact E].
Qed.

(** After assigning over a repeat dimension, every repeat holds its own part. *)
Theorem list_write_reads s c (st st' : pstate) e ds1 d idx p r :
  Obj s c st -> In e (s_entries s) -> e_symm e = false -> e_dims e = ds1 ++ [d] -> InDims idx ds1 ->
  (0 <= d)%Z -> (forall i q, item p i = Some q -> pay_ok q) ->
  setitem zero s (num_env c) (PStr (e_name e) :: map (fun i => PInt i) idx ++ [PSlc slice_all]) p st = (st', Ok r) ->
  forall i m, i < Z.to_nat d ->
  i_get zero s (PStr (e_name e) :: map (fun i => PInt i) idx ++ [PInt (Z.of_nat i)]) = Ok (@RIdx T m) ->
  exists q M R, item p i = Some q /\ to_mtype q = Ok M /\ fits M (dm_sp m) /\
    getitem zero s (num_env c) (PStr (e_name e) :: map (fun i => PInt i) idx ++ [PInt (Z.of_nat i)]) st' = Ok (RMat R) /\
    dm_sp R = dm_sp m /\ (forall x, In x (sp_pat (dm_sp m)) -> dm_at R x = Some (fit zero M (dm_sp m) x)) /\
    (dm_sp M = dm_sp m -> R = M).
Proof.
  intros Ho He Hs Hd Hidx Hpos Hpok Hset.
  pose proof (ob_wf _ _ _ Ho) as Hw. pose proof (ob_built _ _ _ Ho) as Hc.
  pose proof (Forall2_len _ _ _ Hidx) as Hlen.
  pose proof (list_write s (num_env c) st e ds1 d [] idx [] p Hw He Hd Hlen Hpos) as HL.
  rewrite Hset in HL. unfold done in HL. simpl in HL.
  (* the i-th index is a canonical one *)
  set (ci := fun i : nat => KS (e_name e) :: map KI (idx ++ [Z.of_nat i])).
  assert (Epi : forall i, PStr (e_name e) :: map (fun i => PInt i) idx ++ [PInt (Z.of_nat i)] = @pidx T (ci i)).
  { intros i. unfold ci, pidx. simpl. f_equal. rewrite map_map, map_app. reflexivity. }
  assert (Hat : forall i, i < Z.to_nat d -> At s (ci i) e).
  { intros i Hi. apply At_here; [exact He|]. rewrite Hd. apply Forall2_app; [exact Hidx|]. constructor; [lia|constructor]. }
  assert (G : forall l st0, Obj s c st0 -> (forall i, In i l -> i < Z.to_nat d) -> NoDup l ->
     (st', true) = write_seq zero s (num_env c) (map (write_at e idx [] p) l) st0 ->
     (forall i m, In i l -> cmap_get (ci i) (cs_map c) = Some m ->
        exists q M R, item p i = Some q /\ to_mtype q = Ok M /\ fits M (dm_sp m) /\
           getitem zero s (num_env c) (pidx (ci i)) st' = Ok (RMat R) /\
           dm_sp R = dm_sp m /\ (forall x, In x (sp_pat (dm_sp m)) -> dm_at R x = Some (fit zero M (dm_sp m) x)) /\
           (dm_sp M = dm_sp m -> R = M)) /\
     (forall i m, i < Z.to_nat d -> ~ In i l -> cmap_get (ci i) (cs_map c) = Some m -> 
        getitem zero s (num_env c) (pidx (ci i)) st' = getitem zero s (num_env c) (pidx (ci i)) st0)).
  { clear st Ho Hset HL. induction l as [|i l IH]; intros st0 Ho Hl Hnd HL.
    - simpl in HL. injection HL as ->. split; [intros i m []|auto].
    - cbn [map write_seq write_at] in HL. destruct (item p i) as [q|] eqn:Eq; [|discriminate].
      rewrite (Epi i) in HL. destruct (setitem zero s (num_env c) (pidx (ci i)) q st0) as [st1 [r0|]] eqn:E1; [|discriminate].
      apply NoDup_cons_iff in Hnd as [Hni Hnd].
      assert (Hi : i < Z.to_nat d) by (apply Hl; now left). pose proof (Hat i Hi) as Hati.
      assert (Ho1 : Obj s c st1 /\ (forall m, cmap_get (ci i) (cs_map c) = Some m -> 
           (exists M, to_mtype q = Ok M) /\ unchanged (dm_nz m) st0 st1) /\
           (cmap_get (ci i) (cs_map c) = None -> st1 = st0)).
      { destruct (cmap_get (ci i) (cs_map c)) as [m|] eqn:Em.
        - destruct (to_mtype q) as [M|x] eqn:EM.
          + destruct (setitem_at zero s c st0 (ci i) e m q M Ho Hati Hs Em (Hpok _ _ Eq) EM) as [[_ E]|[_ E]]; rewrite E in E1; [|discriminate].
            injection E1 as <- <-. split; [apply Obj_with_master; [exact Ho|apply vec_set_list_length]|].
            split; [|discriminate]. intros m' [= <-]. split; [eauto|]. split; simpl; [apply vec_set_list_length|].
            intros k Hk. now apply vec_set_list_other.
          + rewrite (setitem_at_err zero s c st0 (ci i) e m q x Ho Hati Em EM) in E1. discriminate.
        - unfold setitem in E1. rewrite <- (app_nil_r (pidx (ci i))), (travS_at zero s (ci i) e Hati Hw) in E1. cbn [endD] in E1.
          rewrite dispatch_None in E1 by (auto; discriminate). discriminate. }
      destruct Ho1 as (Ho1 & Hch & Hnone).
      destruct (IH st1 Ho1 (fun j h => Hl j (or_intror h)) Hnd HL) as [IH1 IH2]. split.
      + intros j m [<-|Hj] Hm; [|now apply IH1]. destruct (Hch m Hm) as ((M & HM) & _).
        assert (Hi' : i_get zero s (@pidx T (ci i)) = Ok (RIdx m)) by (rewrite (i_get_at zero s c (ci i) e Hw Hc Hati), Hm; reflexivity).
        destruct (read_after_write zero s c st0 (ci i) e m q M st1 r0 Ho Hati Hs Hi' (Hpok _ _ Eq) HM E1) as (Hf & R & HR & H1 & H2 & H3).
        exists q, M, R. rewrite (IH2 i m Hi Hni Hm). repeat split; auto.
      + intros j m Hj Hnj Hm. rewrite (IH2 j m Hj (fun h => Hnj (or_intror h)) Hm).
        destruct (cmap_get (ci i) (cs_map c)) as [mi|] eqn:Em; [|now rewrite Hnone].
        destruct (Hch mi eq_refl) as (_ & Hun). symmetry. pose proof (Hat j Hj) as Hatj.
        eapply (reads_local zero s c st0 st1 (pidx (ci j)) (RIdx m)); [exact Hc| | |].
        * rewrite <- (Epi j). constructor; [exact I|]. apply Forall_app. split; [|repeat constructor].
          apply Forall_forall. intros x Hx. apply in_map_iff in Hx as (z & <- & _). exact I.
        * rewrite (i_get_at zero s c (ci j) e Hw Hc Hatj), Hm. reflexivity.
        * intros k Hk. apply Hun. intros Hki.
          apply (at_disjoint s c (ci i) (ci j) mi m k Hw Hc Em Hm); auto.
          intros r1 r2. apply app_len_neq.
          -- unfold ci. simpl. now rewrite !map_length, !app_length.
          -- intros E. apply Hnj. left. injection E as E.
             rewrite !map_app in E. apply app_inv_head in E. injection E as E. lia. }
  intros i m Hi Hm. rewrite (Epi i) in Hm |- *.
  destruct (G (seq 0 (Z.to_nat d)) st Ho) as [G1 _].
  - intros j Hj. apply in_seq in Hj. lia.
  - apply seq_NoDup.
  - rewrite <- HL. destruct r; reflexivity.
  - apply G1; [apply in_seq; lia|]. eapply i_get_inv; eauto.
Qed.

(** A list that is too short raises. *)
Theorem list_write_short s (en : env) (st : pstate) e ds1 d ds2 idx rest l :
  Wf s -> In e (s_entries s) -> e_dims e = ds1 ++ d :: ds2 -> length idx = length ds1 -> (Z.of_nat (length l) < d)%Z ->
  snd (setitem zero s en (PStr (e_name e) :: map (fun i => PInt i) idx ++ PSlc slice_all :: rest) (PayList l) st) = Err EException.
Proof.
  intros Hw He Hd Hl Hlt.
  pose proof (list_write s en st e ds1 d ds2 idx rest (PayList l) Hw He Hd Hl ltac:(lia)) as HL.
  assert (G : forall n k st0, length l < k + n -> k <= length l -> 
     snd (write_seq zero s en (map (write_at e idx rest (PayList l)) (seq k n)) st0) = false).
  { induction n as [|n IH]; intros k st0 H1 H2; [lia|]. cbn [seq map write_seq write_at item].
    destruct (nth_error l k) eqn:E; [|reflexivity]. pose proof (nth_error_Some_lt_ _ _ _ E).
    destruct (setitem zero s en _ p st0) as [st1 [r0|]]; [|reflexivity]. apply IH; lia. }
  specialize (G (Z.to_nat d) 0 st ltac:(lia) ltac:(lia)). rewrite <- HL in G. unfold done in G. simpl in G.
  rewrite (setitem_prefix s en e ds1 (d :: ds2)) in * by auto using Wf_NoDup. cbn [travD] in *. unfold mwrap in *.
  match goal with |- snd (match ?x with _ => _ end) = _ => destruct x as [s1 [a|x0]] end; simpl in *; [discriminate|reflexivity].
Qed.

(** Elements beyond the dimension are not looked at. *)
Theorem list_write_extra s (en : env) (st : pstate) e ds1 d ds2 idx rest l l' :
  Wf s -> In e (s_entries s) -> e_dims e = ds1 ++ d :: ds2 -> length idx = length ds1 -> Z.of_nat (length l) = d ->
  done (setitem zero s en (PStr (e_name e) :: map (fun i => PInt i) idx ++ PSlc slice_all :: rest) (PayList (l ++ l')) st) =
  done (setitem zero s en (PStr (e_name e) :: map (fun i => PInt i) idx ++ PSlc slice_all :: rest) (PayList l) st).
Proof.
  intros Hw He Hd Hl Hlen. rewrite !(list_write s en st e ds1 d ds2) by (auto; lia). f_equal.
  apply map_ext_in. intros i Hi. apply in_seq in Hi. unfold write_at. f_equal. simpl. apply nth_error_app1. lia.
Qed.

(** [repeated(v)] and a plain matrix or number are the list of equal elements. *)
Theorem broadcast_write s (en : env) (st : pstate) e ds1 d ds2 idx rest p v :
  Wf s -> In e (s_entries s) -> e_dims e = ds1 ++ d :: ds2 -> length idx = length ds1 -> (0 <= d)%Z ->
  (p = PayRep v \/ (p = v /\ match v with PayList _ | PayRep _ => False | _ => True end)) ->
  done (setitem zero s en (PStr (e_name e) :: map (fun i => PInt i) idx ++ PSlc slice_all :: rest) p st) =
  done (setitem zero s en (PStr (e_name e) :: map (fun i => PInt i) idx ++ PSlc slice_all :: rest) (PayList (repeat v (Z.to_nat d))) st).
Proof.
  intros Hw He Hd Hl Hpos Hp. rewrite !(list_write s en st e ds1 d ds2) by (auto; lia). f_equal.
  apply map_ext_in. intros i Hi. apply in_seq in Hi. unfold write_at. f_equal. simpl.
  rewrite (nth_error_nth' _ v) by (rewrite repeat_length; lia). rewrite nth_repeat.
  destruct Hp as [->|[-> Hv]]; [reflexivity|]. destruct v; try contradiction; reflexivity.
Qed.

(** ** C19: a failing assignment to one element (possibly with extra indices) changes nothing. *)
Theorem single_write_atomic s c (st st' : pstate) ci e rest v x :
  Wf s -> At s ci e -> e_struct e = None -> e_symm e = false ->
  setitem zero s (num_env c) (pidx ci ++ rest) v st = (st', Err x) -> st' = st.
Proof.
  intros Hw Ha He Hs. unfold setitem. rewrite (travS_at zero s ci e Ha Hw). unfold endD, subT. rewrite He.
  assert (G : forall ex, mwrap (dispatch zero (num_env c) MSet v ([] ++ ci) ex (Some (info zero e))) st = (st', Err x) -> st' = st).
  { intros ex. simpl. unfold mwrap, setter, mbind, mlift. destruct (to_mtype v) as [M|]; [|unfold merr, mret; simpl; congruence].
    cbn [num_env en_map en_kind is_symm info ei_symm]. rewrite Hs.
    destruct (cmap_get ci (cs_map c)) as [mi|]; [|unfold merr, mret; simpl; congruence].
    destruct (performExtraIndex _ false (RIdx mi) (extra ex)) as [r|]; [|unfold merr, mret; simpl; congruence].
    destruct r; try (unfold merr, mret; simpl; congruence). simpl.
    destruct (vec_set zero (ps_master st) m M); [discriminate|unfold merr, mret; simpl; congruence]. }
  destruct rest; apply G.
Qed.

(** ** C28 *)
Definition sel_of (p : pel) : option sel :=
  match p with
  | PInt i => Some (SelInt i)
  | PSlc s => Some (SelSlice s)
  | PLst l => match ck_ints l with Some is => Some (SelList is) | None => None end
  | _ => None
  end.

Lemma delegation_sel ei pos a sa : sel_of a = Some sa -> delegation ei pos a = Ok (DSel sa).
Proof.
  destruct a; simpl; try discriminate; try (intros [= <-]; reflexivity).
  destruct (ck_ints l); [intros [= <-]; reflexivity|discriminate].
Qed.

Lemma pei2 ei m a b sa sb : sel_of a = Some sa -> sel_of b = Some sb ->
  @performExtraIndex T ei false (RIdx m) [a; b] = rmap (@RIdx T) (dm_get2 m sa sb).
Proof.
  intros Ha Hb. pose proof (delegation_sel ei 0 a sa Ha) as Ea. pose proof (delegation_sel ei 1 b sb Hb) as Eb.
  assert (K : performExtraIndex ei false (RIdx m) [a; b] = let* a' := delegation ei 0 a in let* b' := delegation ei 1 b in getitem2 (RIdx m) a' b').
  { destruct a; try discriminate; reflexivity. }
  rewrite K, Ea. cbn [rbind]. rewrite Eb. reflexivity.
Qed.
Lemma pei1 ei m a sa : sel_of a = Some sa -> @performExtraIndex T ei false (RIdx m) [a] = rmap (@RIdx T) (dm_get1 m sa).
Proof.
  intros Ha. pose proof (delegation_sel ei 0 a sa Ha) as Ea.
  assert (K : performExtraIndex ei false (RIdx m) [a] = let* a' := delegation ei 0 a in getitem1 (RIdx m) a').
  { destruct a; try discriminate; reflexivity. }
  rewrite K, Ea. reflexivity.
Qed.

Lemma getitem_extra s c (st : pstate) ci e m ex m' :
  Obj s c st -> At s ci e -> e_struct e = None -> e_symm e = false -> cmap_get ci (cs_map c) = Some m ->
  ex <> [] -> DmOk m' -> incl (dm_nz m') (dm_nz m) ->
  performExtraIndex (Some (info zero e)) false (RIdx m) ex = Ok (RIdx m') ->
  getitem zero s (num_env c) (pidx ci ++ ex) st = Ok (RMat (vals zero (ps_master st) m')).
Proof.
  intros Ho Ha He Hs Hm Hne Hok Hinc E. pose proof (ob_wf _ _ _ Ho) as Hw. pose proof (ob_built _ _ _ Ho) as Hc.
  unfold getitem. rewrite (travS_at zero s ci e Ha Hw). unfold endD, subT. rewrite He.
  destruct ex as [|x ex]; [contradiction|]. rewrite mwrap_snd. cbn [dispatch]. unfold getter. simpl ([] ++ ci).
  cbn [num_env en_map en_pmap extra]. rewrite Hm. unfold mbind, mlift. rewrite E. unfold get_master. cbn [is_symm info ei_symm]. rewrite Hs.
  destruct (map_ok s c ci m Hw Hc Hm) as (_ & _ & _ & Hb & _). rewrite Forall_forall in Hb.
  unfold correct_vector_indexing. rewrite (cvi_ok zero); [reflexivity|apply Hok|].
  unfold inb. apply Forall_forall. intros k Hk. rewrite (ob_len _ _ _ Ho). apply Hb, Hinc, Hk.
Qed.

Lemma getitem_extra_err s c (st : pstate) ci e m ex x :
  Obj s c st -> At s ci e -> e_struct e = None -> cmap_get ci (cs_map c) = Some m -> ex <> [] ->
  performExtraIndex (Some (info zero e)) false (RIdx m) ex = Err x ->
  getitem zero s (num_env c) (pidx ci ++ ex) st = Err EException.
Proof.
  intros Ho Ha He Hm Hne E. pose proof (ob_wf _ _ _ Ho) as Hw.
  unfold getitem. rewrite (travS_at zero s ci e Ha Hw). unfold endD, subT. rewrite He.
  destruct ex as [|y ex]; [contradiction|]. rewrite mwrap_snd. cbn [dispatch]. unfold getter. simpl ([] ++ ci).
  cbn [num_env en_map en_pmap extra]. rewrite Hm. unfold mbind, mlift. rewrite E. reflexivity.
Qed.

(** [s[ci, r, c]] is the sub-matrix [r, c] of [s[ci]], also for errors. *)
Theorem extra_read2 s c (st : pstate) ci e R a b sa sb :
  Obj s c st -> At s ci e -> e_struct e = None -> e_symm e = false -> sel_of a = Some sa -> sel_of b = Some sb ->
  getitem zero s (num_env c) (pidx ci) st = Ok (RMat R) ->
  getitem zero s (num_env c) (pidx ci ++ [a; b]) st = wrapE (rmap (@RMat T) (dm_get2 R sa sb)).
Proof.
  intros Ho Ha He Hs Hsa Hsb HR. pose proof (ob_wf _ _ _ Ho) as Hw. pose proof (ob_built _ _ _ Ho) as Hc.
  destruct (map_get_leaf s c ci e Hw Hc (At_Leaf _ _ _ Ha He)) as (m & Hm & _).
  rewrite (getitem_at zero s c st ci e m Ho Ha Hs Hm) in HR. injection HR as <-. unfold vals. rewrite dm_get2_map.
  destruct (dm_get2 m sa sb) as [m'|x] eqn:E; simpl.
  - apply (getitem_extra s c st ci e m [a; b] m'); auto; [discriminate|eapply dm_get2_ok; eauto| |].
    + intros k. eapply dm_get2_nz; eauto.
    + rewrite (pei2 _ m a b sa sb Hsa Hsb), E. reflexivity.
  - apply (getitem_extra_err s c st ci e m [a; b] x); auto; [discriminate|]. rewrite (pei2 _ m a b sa sb Hsa Hsb), E. reflexivity.
Qed.
Theorem extra_read1 s c (st : pstate) ci e R a sa :
  Obj s c st -> At s ci e -> e_struct e = None -> e_symm e = false -> sel_of a = Some sa ->
  getitem zero s (num_env c) (pidx ci) st = Ok (RMat R) ->
  getitem zero s (num_env c) (pidx ci ++ [a]) st = wrapE (rmap (@RMat T) (dm_get1 R sa)).
Proof.
  intros Ho Ha He Hs Hsa HR. pose proof (ob_wf _ _ _ Ho) as Hw. pose proof (ob_built _ _ _ Ho) as Hc.
  destruct (map_get_leaf s c ci e Hw Hc (At_Leaf _ _ _ Ha He)) as (m & Hm & _).
  rewrite (getitem_at zero s c st ci e m Ho Ha Hs Hm) in HR. injection HR as <-. unfold vals. rewrite dm_get1_map.
  destruct (dm_get1 m sa) as [m'|x] eqn:E; simpl.
  - apply (getitem_extra s c st ci e m [a] m'); auto; [discriminate|eapply dm_get1_ok; eauto| |].
    + intros k. eapply dm_get1_nz; eauto.
    + rewrite (pei1 _ m a sa Hsa), E. reflexivity.
  - apply (getitem_extra_err s c st ci e m [a] x); auto; [discriminate|]. rewrite (pei1 _ m a sa Hsa), E. reflexivity.
Qed.

(** Writing through an extra index: the selected elements become [v], nothing else changes. *)
Theorem extra_write s c (st st' : pstate) ci e ex m' v M r :
  Obj s c st -> At s ci e -> e_struct e = None -> e_symm e = false -> ex <> [] ->
  Forall (fun p => match p with PFun _ => False | _ => True end) ex ->
  i_get zero s (pidx ci ++ ex) = Ok (@RIdx T m') -> NoDup (dm_nz m') ->
  pay_ok v -> to_mtype v = Ok M ->
  setitem zero s (num_env c) (pidx ci ++ ex) v st = (st', Ok r) ->
  fits M (dm_sp m') /\
  length (ps_master st') = length (ps_master st) /\
  (forall k, ~ In k (dm_nz m') -> nth_error (ps_master st') k = nth_error (ps_master st) k) /\
  exists R, getitem zero s (num_env c) (pidx ci ++ ex) st' = Ok (RMat R) /\ dm_sp R = dm_sp m' /\
    (forall p, In p (sp_pat (dm_sp m')) -> dm_at R p = Some (fit zero M (dm_sp m') p)).
Proof.
  intros Ho Ha He Hs Hne Hex Hi Hnd Hv HM Hset. pose proof (ob_wf _ _ _ Ho) as Hw. pose proof (ob_built _ _ _ Ho) as Hc.
  destruct (map_get_leaf s c ci e Hw Hc (At_Leaf _ _ _ Ha He)) as (m & Hm & _).
  destruct (map_ok s c ci m Hw Hc Hm) as (_ & Hok & _ & Hb & _).
  assert (Hpei : performExtraIndex (Some (info zero e)) false (RIdx m) ex = Ok (@RIdx T m')).
  { unfold i_get, index_getter in Hi. rewrite Hc in Hi. cbn [rbind] in Hi.
    rewrite (travS_at zero s ci e Ha Hw) in Hi. unfold endD, subT in Hi. rewrite He in Hi. destruct ex as [|y ex]; [contradiction|].
    rewrite mwrap_snd in Hi. cbn [dispatch] in Hi. unfold mlift, imget in Hi. simpl ([] ++ ci) in Hi. cbn [en_map extra snd] in Hi. rewrite Hm in Hi.
    destruct (performExtraIndex _ _ _ _); cbn [rbind wrapE] in Hi; [congruence|discriminate]. }
  destruct (pei_ok _ _ _ _ _ Hok Hex Hpei) as (m'' & [= <-] & Hok' & Hinc).
  assert (Hib : inb (ps_master st) m').
  { unfold inb. apply Forall_forall. intros k Hk. rewrite Forall_forall in Hb. rewrite (ob_len _ _ _ Ho). auto. }
  unfold setitem in Hset. rewrite (travS_at zero s ci e Ha Hw) in Hset. unfold endD, subT in Hset. rewrite He in Hset.
  assert (Hset' : mwrap (dispatch zero (num_env c) MSet v ([] ++ ci) (Some ex) (Some (info zero e))) st = (st', Ok r))
    by (destruct ex; [contradiction|exact Hset]).
  clear Hset. cbn [dispatch] in Hset'. unfold mwrap, setter, mbind, mlift in Hset'. rewrite HM in Hset'. simpl ([] ++ ci) in Hset'.
  cbn [num_env en_map extra] in Hset'. rewrite Hm, Hpei in Hset'. cbn [is_symm info ei_symm] in Hset'. rewrite Hs in Hset'.
  unfold master_set in Hset'. cbn [num_env en_kind] in Hset'.
  destruct (vec_set_ok zero (ps_master st) m' M Hok' (to_mtype_ok v M Hv HM) Hib) as [[Hf E]|[Hf E]]; rewrite E in Hset'; [|discriminate].
  injection Hset' as <- <-. split; [exact Hf|]. simpl ps_master. split; [apply vec_set_list_length|].
  split; [intros k Hk; now apply vec_set_list_other|].
  set (v' := vec_set_list _ _ _).
  assert (Ho' : Obj s c (with_master st v')) by (apply Obj_with_master; [exact Ho|apply vec_set_list_length]).
  eexists. split; [apply (getitem_extra s c (with_master st v') ci e m ex m' Ho' Ha He Hs Hm Hne Hok' Hinc Hpei)|]. split; [reflexivity|].
  simpl ps_master.
  assert (En : dm_nz (vals zero v' m') = map (fit zero M (dm_sp m')) (sp_pat (dm_sp m'))).
  { simpl. unfold v'. apply vec_set_list_vals; [exact Hnd|exact Hib|]. rewrite map_length. destruct Hok' as [_ Hl]. symmetry. exact Hl. }
  intros p Hp. unfold dm_at. rewrite En. change (dm_sp (vals zero v' m')) with (dm_sp m'). rewrite pos_assoc_fun.
  apply pos_mem_In in Hp. now rewrite Hp.
Qed.
End P.
