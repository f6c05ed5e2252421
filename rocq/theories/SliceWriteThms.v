(** Assignments through a slice or a list of integers in a repeat dimension, exactly:
    which element gets which part of the right-hand side, when the assignment raises and
    what it has changed by then (C17, C19). *)
From Coq Require Import Sorting.Sorted.
From Verif Require Import PyBase IndexModel DMModel StructModel StructSpec PowerModel PowerSpec
  IndexProofs StructProofs LayoutProofs LayoutThms LayoutExamples DMProofs PowerProofs PowerThms SliceProofs PowerThms2 PowerThms3 PowerThms4.

(** ** Spec *)
(** Python's [L[i]] on the right-hand side: a list is indexed, from its end for a negative
    number; anything else is taken whole. *)
Definition item_at {T} (p : pay T) (i : Z) : option (pay T) :=
  match p with
  | PayList l => if (i <? 0)%Z then (if (i + Z.of_nat (length l) <? 0)%Z then None else nth_error l (Z.to_nat (i + Z.of_nat (length l))))
                 else nth_error l (Z.to_nat i)
  | PayRep q => Some q
  | _ => Some p
  end.

(** [s[name, idx.., i]] can hold the matrix that the part [q] of the right-hand side stands for. *)
Definition Storable {T} (zero : T) (s : structure) (name : string) (idx : list Z) (i : Z) (q : pay T) : Prop :=
  exists m M, i_get zero s (PStr name :: map (fun i => PInt i) idx ++ [PInt i]) = Ok (@RIdx T m) /\
    to_mtype q = Ok M /\ fits M (dm_sp m).

Section P.
Context {T : Type} (zero : T).
Notation rval := (rval T).
Notation pel := (pel T).
Notation pay := (pay T).
Notation env := (env T).
Notation einfo := (einfo T).
Notation pstate := (pstate T).
Notation clos := (@clos T).

Lemma unpack_at (p : pay) i : match item_at p i with Some q => payloadUnpack p (KI i) = Ok q | None => exists x, payloadUnpack p (KI i) = Err x end.
Proof.
  destruct p; try reflexivity. cbn [payloadUnpack item_at].
  destruct (Z.leb_spec (Z.of_nat (length l)) i) as [H|H].
  - destruct (Z.ltb_spec i 0); [lia|]. rewrite (proj2 (nth_error_None _ _)) by lia. eauto.
  - unfold py_nth. destruct (Z.ltb_spec i 0) as [Hn|Hn].
    + destruct (Z.ltb_spec (i + Z.of_nat (length l)) 0) as [Hm|Hm].
      * destruct (Z.leb_spec 0 (i + Z.of_nat (length l))); [lia|]. cbn. eauto.
      * destruct (Z.leb_spec 0 (i + Z.of_nat (length l))); [|lia]. destruct (Z.ltb_spec (i + Z.of_nat (length l)) (Z.of_nat (length l))); [|lia].
        cbn. destruct (nth_error l (Z.to_nat (i + Z.of_nat (length l)))) eqn:En; [reflexivity|eauto].
    + destruct (Z.leb_spec 0 i); [|lia]. destruct (Z.ltb_spec i (Z.of_nat (length l))); [|lia].
      cbn. destruct (nth_error l (Z.to_nat i)) eqn:En; [reflexivity|eauto].
Qed.

Definition write_at_z (e : entry) (idx : list Z) (rest : list pel) (p : pay) (i : Z) : list pel * option pay :=
  (PStr (e_name e) :: map (fun i => PInt i) idx ++ PInt i :: rest, item_at p i).


(** ** The elements are visited in the order of the slice or list; the part of the right-hand
    side for an element is looked up by the element's own index, not by its rank. *)
Lemma seq_many s (en : env) e ds1 d ds2 idx rest p l st (pi : pel) :
  Wf s -> In e (s_entries s) -> e_dims e = ds1 ++ d :: ds2 -> length idx = length ds1 ->
  (forall md ci p, travD zero en (info zero e) (subT zero e) (d :: ds2) md (pi :: rest) ci p =
     mwrap (mbind (mmapM (fun k => match k with
                     | KS _ => merr EType
                     | KI i => mbind (mlift (payloadUnpack p k)) (fun p' =>
                               travD zero en (info zero e) (subT zero e) ds2 md rest (ci ++ [KI (canonical i d)]) p')
                     end) (map KI l)) (fun rs => mret (RList rs)))) ->
  done (setitem zero s en (PStr (e_name e) :: map (fun i => PInt i) idx ++ pi :: rest) p st) =
  write_seq zero s en (map (write_at_z e idx rest p) l) st.
Proof.
  intros Hw He Hd Hl Hpi. pose proof (Wf_NoDup _ Hw) as Hnd.
  rewrite (setitem_prefix zero s en e ds1 (d :: ds2)) by assumption. rewrite Hpi. clear Hpi.
  unfold mwrap. unfold mbind at 1.
  match goal with |- context [mmapM ?g _ _] => set (step := g) end.
  revert st. induction l as [|i l IH]; intros st; [reflexivity|]. cbn [map write_seq write_at_z].
  cbn [mmapM]. unfold mbind at 1. unfold step at 1. pose proof (unpack_at p i) as Hu.
  destruct (item_at p i) as [q|]; [|destruct Hu as (x & ->); reflexivity]. rewrite Hu.
  unfold mbind at 1, mlift at 1.
  assert (E : setitem zero s en (PStr (e_name e) :: map (fun i => PInt i) idx ++ PInt i :: rest) q st =
     travD zero en (info zero e) (subT zero e) ds2 MSet rest ((KS (e_name e) :: map KI (from_ends ds1 idx)) ++ [KI (canonical i d)]) q st).
  { rewrite (setitem_prefix zero s en e ds1 (d :: ds2)) by assumption. cbn [travD]. apply mwrap_travD. }
  rewrite E. destruct (travD zero en (info zero e) (subT zero e) ds2 MSet rest _ q st) as [st1 [r|x]]; [|reflexivity].
  rewrite <- IH. unfold mbind. destruct (mmapM step _ st1) as [st2 [rs|x]]; reflexivity.
Qed.

Theorem slice_write s (en : env) (st : pstate) e ds1 d ds2 idx sl rest p :
  Wf s -> In e (s_entries s) -> e_dims e = ds1 ++ d :: ds2 -> length idx = length ds1 -> (0 <= d)%Z -> sl_step sl <> Some 0%Z ->
  done (setitem zero s en (PStr (e_name e) :: map (fun i => PInt i) idx ++ PSlc sl :: rest) p st) =
  write_seq zero s en (map (write_at_z e idx rest p) (py_slice_positions d sl)) st.
Proof.
  intros Hw He Hd Hl Hpos Hs. apply (seq_many s en e ds1 d ds2); auto. intros md ci p0. cbn [travD].
  rewrite slice_range_positions by assumption. reflexivity.
Qed.

Theorem slice_write_step0 s (en : env) (st : pstate) e ds1 d ds2 idx a b rest p :
  Wf s -> In e (s_entries s) -> e_dims e = ds1 ++ d :: ds2 -> length idx = length ds1 ->
  setitem zero s en (PStr (e_name e) :: map (fun i => PInt i) idx ++ PSlc (Slc a b (Some 0%Z)) :: rest) p st = (st, Err EException).
Proof.
  intros Hw He Hd Hl. rewrite (setitem_prefix zero s en e ds1 (d :: ds2)) by auto using Wf_NoDup. cbn [travD].
  rewrite slice_range_step0 by reflexivity. reflexivity.
Qed.

Theorem ints_write s (en : env) (st : pstate) e ds1 d ds2 idx l rest p :
  Wf s -> In e (s_entries s) -> e_dims e = ds1 ++ d :: ds2 -> length idx = length ds1 ->
  done (setitem zero s en (PStr (e_name e) :: map (fun i => PInt i) idx ++ PLst (map KI l) :: rest) p st) =
  write_seq zero s en (map (write_at_z e idx rest p) l) st.
Proof.
  intros Hw He Hd Hl. apply (seq_many s en e ds1 d ds2); auto.
Qed.

(** ** Exactly what has happened after such an assignment to a dimension of an entry: a prefix
    [pre] of the positions has been written, each with its own part of the right-hand side;
    the assignment succeeds iff that is all of them, and otherwise the next position has no
    part or a part that does not fit; nothing else has changed. *)
Definition Stored (s : structure) (c : cstruct) (name : string) (idx : list Z) (st' : pstate) (i : Z) (q : pay) : Prop :=
  exists m M R, i_get zero s (PStr name :: map (fun i => PInt i) idx ++ [PInt i]) = Ok (@RIdx T m) /\
    to_mtype q = Ok M /\ fits M (dm_sp m) /\
    getitem zero s (num_env c) (PStr name :: map (fun i => PInt i) idx ++ [PInt i]) st' = Ok (RMat R) /\
    dm_sp R = dm_sp m /\ (forall x, In x (sp_pat (dm_sp m)) -> dm_at R x = Some (fit zero M (dm_sp m) x)) /\
    (dm_sp M = dm_sp m -> R = M).

Lemma seq_exact s c e ds1 d idx p :
  Wf s -> In e (s_entries s) -> e_symm e = false -> e_dims e = ds1 ++ [d] -> InDims idx ds1 ->
  (forall i q, item_at p i = Some q -> pay_ok q) ->
  forall l st st' b, Obj s c st -> (forall i, In i l -> (0 <= i < d)%Z) -> NoDup l ->
  write_seq zero s (num_env c) (map (write_at_z e idx [] p) l) st = (st', b) ->
  exists pre post, l = pre ++ post /\ (b = true <-> post = []) /\
    Obj s c st' /\ st' = with_master st (ps_master st') /\ length (ps_master st') = length (ps_master st) /\
    (forall i post', post = i :: post' -> forall q, item_at p i = Some q -> ~ Storable zero s (e_name e) idx i q) /\
    (forall i, In i pre -> exists q, item_at p i = Some q /\ Stored s c (e_name e) idx st' i q) /\
    (forall k, (forall i m, In i pre -> i_get zero s (PStr (e_name e) :: map (fun i => PInt i) idx ++ [PInt i]) = Ok (@RIdx T m) -> ~ In k (dm_nz m)) ->
       nth_error (ps_master st') k = nth_error (ps_master st) k).
Proof.
  intros Hw He Hs Hd Hidx Hpok. pose proof (Forall2_len _ _ _ Hidx) as Hlen.
  set (ci := fun i : Z => KS (e_name e) :: map KI (idx ++ [i])).
  assert (Epi : forall i, PStr (e_name e) :: map (fun i => PInt i) idx ++ [PInt i] = @pidx T (ci i)).
  { intros i. unfold ci, pidx. simpl. f_equal. rewrite map_map, map_app. reflexivity. }
  assert (Hat : forall i, (0 <= i < d)%Z -> At s (ci i) e).
  { intros i Hi. apply At_here; [exact He|]. rewrite Hd. apply Forall2_app; [exact Hidx|]. constructor; [lia|constructor]. }
  induction l as [|i l IH]; intros st st' b Ho Hl Hnd HL.
  - simpl in HL. injection HL as <- <-. exists [], []. split; [reflexivity|]. split; [tauto|]. split; [exact Ho|].
    split; [destruct st; reflexivity|]. split; [reflexivity|]. split; [discriminate|]. split; [intros i []|reflexivity].
  - assert (Hc : casadi_structure s = Ok c) by (apply (ob_built _ _ _ Ho)).
    assert (Hi : (0 <= i < d)%Z) by (apply Hl; now left). pose proof (Hat i Hi) as Hati.
    assert (Hstop : (st', b) = (st, false) -> (forall q, item_at p i = Some q -> ~ Storable zero s (e_name e) idx i q) -> 
       exists pre post, i :: l = pre ++ post /\ (b = true <-> post = []) /\
    Obj s c st' /\ st' = with_master st (ps_master st') /\ length (ps_master st') = length (ps_master st) /\
    (forall i post', post = i :: post' -> forall q, item_at p i = Some q -> ~ Storable zero s (e_name e) idx i q) /\
    (forall i, In i pre -> exists q, item_at p i = Some q /\ Stored s c (e_name e) idx st' i q) /\
    (forall k, (forall i m, In i pre -> i_get zero s (PStr (e_name e) :: map (fun i => PInt i) idx ++ [PInt i]) = Ok (@RIdx T m) -> ~ In k (dm_nz m)) ->
       nth_error (ps_master st') k = nth_error (ps_master st) k)).
    { intros [= -> ->] Hns. exists [], (i :: l). split; [reflexivity|]. split; [split; discriminate|]. split; [exact Ho|].
      split; [destruct st; reflexivity|]. split; [reflexivity|]. split; [intros j post' [= <- <-]; exact Hns|]. split; [intros j []|reflexivity]. }
    cbn [map write_seq write_at_z] in HL. destruct (item_at p i) as [q|] eqn:Eq; [|apply Hstop; [congruence|discriminate]].
    rewrite (Epi i) in HL.
    assert (Hex : forall m, i_get zero s (PStr (e_name e) :: map (fun i => PInt i) idx ++ [PInt i]) = Ok (@RIdx T m) <-> cmap_get (ci i) (cs_map c) = Some m).
    { intros m. rewrite (Epi i), (i_get_at zero s c (ci i) e Hw Hc Hati). destruct (cmap_get (ci i) (cs_map c)); split; congruence. }
    destruct (cmap_get (ci i) (cs_map c)) as [m|] eqn:Em.
    2:{ assert (E1 : setitem zero s (num_env c) (pidx (ci i)) q st = (st, Err EException)).
        { unfold setitem. rewrite <- (app_nil_r (pidx (ci i))), (travS_at zero s (ci i) e Hati Hw). cbn [endD].
          apply dispatch_None; [exact Em|discriminate]. }
        rewrite E1 in HL. apply Hstop; [congruence|]. intros q' [= <-] (m & M & Hm & _). apply Hex in Hm. discriminate. }
    destruct (to_mtype q) as [M|x] eqn:EM.
    2:{ rewrite (setitem_at_err zero s c st (ci i) e m q x Ho Hati Em EM) in HL. apply Hstop; [congruence|].
        intros q' [= <-] (m' & M & _ & HM & _). congruence. }
    destruct (setitem_at zero s c st (ci i) e m q M Ho Hati Hs Em (Hpok _ _ Eq) EM) as [[Hf E1]|[Hf E1]].
    2:{ rewrite E1 in HL. apply Hstop; [congruence|]. intros q' [= <-] (m' & M' & Hm' & HM' & Hf').
        apply Hex in Hm'. rewrite EM in HM'. injection HM' as <-. injection Hm' as <-. contradiction. }
    set (st1 := with_master st (vec_set_list (ps_master st) (dm_nz m) (map (fit zero M (dm_sp m)) (sp_pat (dm_sp m))))) in *.
    rewrite E1 in HL.
    apply NoDup_cons_iff in Hnd as [Hni Hnd].
    assert (Ho1 : Obj s c st1) by (apply Obj_with_master; [exact Ho|apply vec_set_list_length]).
    assert (Hi' : i_get zero s (@pidx T (ci i)) = Ok (RIdx m)) by (rewrite <- (Epi i); now apply Hex).
    destruct (read_after_write zero s c st (ci i) e m q M st1 RNone Ho Hati Hs Hi' (Hpok _ _ Eq) EM E1) as (_ & R & HR & H1 & H2 & H3).
    destruct (IH st1 st' b Ho1 (fun j h => Hl j (or_intror h)) Hnd HL) as (pre & post & -> & Hb & Ho' & Hst & Hlen' & Hpost & Hpre & Hfr).
    exists (i :: pre), post. split; [reflexivity|]. split; [exact Hb|]. split; [exact Ho'|].
    split; [exact (eq_trans Hst eq_refl)|]. split; [rewrite Hlen'; apply vec_set_list_length|]. split; [exact Hpost|].
    assert (Hkeep : forall k, In k (dm_nz m) -> nth_error (ps_master st') k = nth_error (ps_master st1) k).
    { intros k Hk. apply Hfr. intros j mj Hj Hmj Hkj. 
      assert (Hjd : (0 <= j < d)%Z) by (apply Hl; right; apply in_app_iff; now left).
      rewrite (Epi j) in Hmj. apply (i_get_inv zero s c (ci j) e mj Hw Hc (Hat j Hjd)) in Hmj.
      apply (at_disjoint s c (ci i) (ci j) m mj k Hw Hc Em Hmj); auto.
      intros r1 r2. apply app_len_neq.
      - unfold ci. simpl. now rewrite !map_length, !app_length.
      - intros E. apply Hni. injection E as E. rewrite !map_app in E. apply app_inv_head in E. injection E as E. subst j.
        apply in_app_iff. now left. }
    split.
    + intros j [<-|Hj]; [|now apply Hpre]. exists q. split; [exact Eq|]. exists m, M, R. split; [now apply Hex|]. split; [exact EM|]. split; [exact Hf|].
      split; [|auto]. rewrite (Epi i), <- HR. symmetry. 
      eapply (reads_local zero s c st1 st' (pidx (ci i)) (RIdx m)); [exact Hc| |exact Hi'|].
      * rewrite <- (Epi i). constructor; [exact I|]. apply Forall_app. split; [|repeat constructor].
        apply Forall_forall. intros x Hx. apply in_map_iff in Hx as (z & <- & _). exact I.
      * intros k Hk. now apply Hkeep.
    + intros k Hk. rewrite Hfr.
      * unfold st1. simpl. apply vec_set_list_other. apply (Hk i m); [now left|now apply Hex].
      * intros j mj Hj. apply Hk. now right.
Qed.

Definition Wrote (s : structure) (c : cstruct) (name : string) (idx : list Z) (p : pay) (l : list Z) (st st' : pstate) (r : res rval) : Prop :=
  exists pre post, l = pre ++ post /\
    ((exists v, r = Ok v) <-> post = []) /\ (post <> [] -> r = Err EException) /\
    st' = with_master st (ps_master st') /\ length (ps_master st') = length (ps_master st) /\
    (forall i post', post = i :: post' -> forall q, item_at p i = Some q -> ~ Storable zero s name idx i q) /\
    (forall i, In i pre -> exists q, item_at p i = Some q /\ Stored s c name idx st' i q) /\
    (forall k, (forall i m, In i pre -> i_get zero s (PStr name :: map (fun i => PInt i) idx ++ [PInt i]) = Ok (@RIdx T m) -> ~ In k (dm_nz m)) ->
       nth_error (ps_master st') k = nth_error (ps_master st) k).

Lemma done_wrapped (m : pstate -> pstate * res rval) st st' r b : mwrap m st = (st', r) -> done (mwrap m st) = (st', b) ->
  ((exists v, r = Ok v) <-> b = true) /\ (b = false -> r = Err EException).
Proof.
  unfold mwrap, done. destruct (m st) as [s1 [v|x]]; cbn; intros [= <- <-] [= <-].
  - split; [split; eauto|discriminate].
  - split; [split; [intros (v & Hv); discriminate|discriminate]|auto].
Qed.

Lemma setitem_wrapped s en e rest p st : Wf s -> In e (s_entries s) ->
  exists m, setitem zero s en (PStr (e_name e) :: rest) p st = mwrap m st.
Proof. intros Hw He. unfold setitem. rewrite travS_name by auto using Wf_NoDup. eexists. reflexivity. Qed.

Lemma wrote_of_seq s c (st st' : pstate) e ds1 d idx pi p l r :
  Obj s c st -> In e (s_entries s) -> e_symm e = false -> e_dims e = ds1 ++ [d] -> InDims idx ds1 ->
  (forall i q, item_at p i = Some q -> pay_ok q) -> (forall i, In i l -> (0 <= i < d)%Z) -> NoDup l ->
  done (setitem zero s (num_env c) (PStr (e_name e) :: pi) p st) = write_seq zero s (num_env c) (map (write_at_z e idx [] p) l) st ->
  setitem zero s (num_env c) (PStr (e_name e) :: pi) p st = (st', r) ->
  Wrote s c (e_name e) idx p l st st' r.
Proof.
  intros Ho He Hs Hd Hidx Hpok Hl Hnd HL Hset. pose proof (ob_wf _ _ _ Ho) as Hw.
  destruct (write_seq zero s (num_env c) (map (write_at_z e idx [] p) l) st) as [st1 b] eqn:E.
  assert (st1 = st') as -> by (rewrite Hset in HL; unfold done in HL; cbn in HL; congruence).
  destruct (setitem_wrapped s (num_env c) e pi p st Hw He) as (m & Em). rewrite Em in HL, Hset.
  destruct (done_wrapped m st st' r b Hset HL) as [Hb Hb'].
  destruct (seq_exact s c e ds1 d idx p Hw He Hs Hd Hidx Hpok l st st' b Ho Hl Hnd E) as (pre & post & H1 & H2 & _ & H4 & H5 & H6 & H7 & H8).
  exists pre, post. split; [exact H1|]. split; [now rewrite <- H2|]. split; [|repeat (split; [assumption|]); assumption].
  intros Hp. apply Hb'. destruct b; [|reflexivity]. exfalso. apply Hp. now apply H2.
Qed.

Lemma py_slice_positions_NoDup n sl : NoDup (py_slice_positions n sl).
Proof.
  assert (H : NoDup (pyrange n)).
  { unfold pyrange. apply FinFun.Injective_map_NoDup; [intros a b; apply Nat2Z.inj|apply seq_NoDup]. }
  unfold py_slice_positions. destruct (0 <? _)%Z; apply NoDup_filter; [exact H|now apply NoDup_rev].
Qed.

Theorem slice_write_exact s c (st st' : pstate) e ds1 d idx sl p r :
  Obj s c st -> In e (s_entries s) -> e_symm e = false -> e_dims e = ds1 ++ [d] -> InDims idx ds1 -> (0 <= d)%Z -> sl_step sl <> Some 0%Z ->
  (forall i q, item_at p i = Some q -> pay_ok q) ->
  setitem zero s (num_env c) (PStr (e_name e) :: map (fun i => PInt i) idx ++ [PSlc sl]) p st = (st', r) ->
  Wrote s c (e_name e) idx p (py_slice_positions d sl) st st' r.
Proof.
  intros Ho He Hs Hd Hidx Hpos Hst Hpok. apply (wrote_of_seq s c st st' e ds1 d); auto.
  - apply py_slice_positions_in.
  - apply py_slice_positions_NoDup.
  - apply (slice_write s (num_env c) st e ds1 d []); auto; [apply (ob_wf _ _ _ Ho)|apply (Forall2_len _ _ _ Hidx)].
Qed.

Theorem ints_write_exact s c (st st' : pstate) e ds1 d idx l p r :
  Obj s c st -> In e (s_entries s) -> e_symm e = false -> e_dims e = ds1 ++ [d] -> InDims idx ds1 ->
  (forall i, In i l -> (0 <= i < d)%Z) -> NoDup l ->
  (forall i q, item_at p i = Some q -> pay_ok q) ->
  setitem zero s (num_env c) (PStr (e_name e) :: map (fun i => PInt i) idx ++ [PLst (map KI l)]) p st = (st', r) ->
  Wrote s c (e_name e) idx p l st st' r.
Proof.
  intros Ho He Hs Hd Hidx Hl Hnd Hpok. apply (wrote_of_seq s c st st' e ds1 d); auto.
  apply (ints_write s (num_env c) st e ds1 d []); auto; [apply (ob_wf _ _ _ Ho)|apply (Forall2_len _ _ _ Hidx)].
Qed.

(** ** C17 for slices: [s[x, sl] = s[x, sl]]. *)
Lemma sorted_range (l : list Z) a : StronglySorted Z.lt l -> (forall x, In x l -> (a <= x < a + Z.of_nat (length l))%Z) ->
  l = map (fun k => (a + Z.of_nat k)%Z) (seq 0 (length l)).
Proof.
  revert a. induction l as [|x l IH]; intros a Hs Hb; [reflexivity|].
  apply StronglySorted_inv in Hs as [Hs Hx]. rewrite Forall_forall in Hx.
  assert (Hl : l = map (fun k => (a + 1 + Z.of_nat k)%Z) (seq 0 (length l))).
  { apply IH; [exact Hs|]. intros y Hy. pose proof (Hb y (or_intror Hy)). pose proof (Hb x (or_introl eq_refl)). specialize (Hx y Hy).
    simpl in *. lia. }
  assert (x = a).
  { pose proof (Hb x (or_introl eq_refl)) as H0. destruct l as [|y l]; [simpl in H0; lia|].
    specialize (Hx y (or_introl eq_refl)). simpl in Hl. injection Hl as Hy _. lia. }
  subst x. simpl. f_equal; [lia|]. rewrite Hl at 1. rewrite <- seq_shift, map_map. apply map_ext. intros k. lia.
Qed.

Lemma sorted_filter (f : Z -> bool) l : StronglySorted Z.lt l -> StronglySorted Z.lt (filter f l).
Proof.
  induction 1 as [|x l Hs IH Hx]; [constructor|]. simpl. destruct (f x); [|exact IH]. constructor; [exact IH|].
  rewrite Forall_forall in *. intros y Hy. apply Hx. now apply filter_In in Hy.
Qed.
Lemma filter_rev_ {A} (f : A -> bool) l : filter f (rev l) = rev (filter f l).
Proof.
  induction l as [|x l IH]; [reflexivity|]. simpl. rewrite filter_app, IH. simpl. destruct (f x); [reflexivity|apply app_nil_r].
Qed.
Lemma pyrange_sorted n : StronglySorted Z.lt (pyrange n).
Proof.
  unfold pyrange. generalize 0. induction (Z.to_nat n) as [|k IH]; intros a; [constructor|]. simpl. constructor; [apply IH|].
  apply Forall_forall. intros y Hy. apply in_map_iff in Hy as (j & <- & Hj). apply in_seq in Hj. lia.
Qed.
Lemma positions_sorted n sl : StronglySorted Z.lt (py_slice_positions n sl) \/ StronglySorted Z.lt (rev (py_slice_positions n sl)).
Proof.
  unfold py_slice_positions. destruct (0 <? _)%Z; [left|right]; [|rewrite filter_rev_, rev_involutive]; apply sorted_filter, pyrange_sorted.
Qed.
Lemma positions_initial n sl : (forall i, In i (py_slice_positions n sl) -> (i < Z.of_nat (length (py_slice_positions n sl)))%Z) ->
  py_slice_positions n sl = pyrange (Z.of_nat (length (py_slice_positions n sl))) \/
  py_slice_positions n sl = rev (pyrange (Z.of_nat (length (py_slice_positions n sl)))).
Proof.
  intros H. pose proof (py_slice_positions_in n sl) as Hin.
  assert (E : forall k, pyrange (Z.of_nat k) = map (fun k => (0 + Z.of_nat k)%Z) (seq 0 k)) by (intros; unfold pyrange; now rewrite Nat2Z.id).
  destruct (positions_sorted n sl) as [Hs|Hs]; [left|right]; apply sorted_range with (a := 0%Z) in Hs.
  - rewrite E. exact Hs.
  - intros x Hx. specialize (H x Hx). specialize (Hin x Hx). lia.
  - rewrite E, <- (rev_length (py_slice_positions n sl)). rewrite <- Hs. now rewrite rev_involutive.
  - intros x Hx. apply in_rev in Hx. specialize (H x Hx). specialize (Hin x Hx). rewrite rev_length. lia.
Qed.

Lemma fits_same (M : dm T) sp : dm_sp M = sp -> fits M sp.
Proof. intros <-. unfold fits. auto. Qed.

Definition elem (s : structure) (c : cstruct) (name : string) (idx : list Z) (st : pstate) (i : Z) : res rval :=
  getitem zero s (num_env c) (PStr name :: map (fun i => PInt i) idx ++ [PInt i]) st.

Theorem slice_back s c (st : pstate) e ds1 d idx sl :
  Obj s c st -> In e (s_entries s) -> e_symm e = false -> e_struct e = None -> e_dims e = ds1 ++ [d] -> InDims idx ds1 -> (0 <= d)%Z -> sl_step sl <> Some 0%Z ->
  let ps := py_slice_positions d sl in
  let ix := PStr (e_name e) :: map (fun i => PInt i) idx ++ [PSlc sl] in
  exists R st' r, getitem zero s (num_env c) ix st = Ok R /\ setitem zero s (num_env c) ix (pay_of R) st = (st', r) /\
  exists pre post, ps = pre ++ post /\
    ((exists v, r = Ok v) <-> post = []) /\ (post <> [] -> r = Err EException) /\
    st' = with_master st (ps_master st') /\ length (ps_master st') = length (ps_master st) /\
    (forall i post', post = i :: post' -> (Z.of_nat (length ps) <= i)%Z) /\
    (forall i, In i pre -> exists j, nth_error ps (Z.to_nat i) = Some j /\ elem s c (e_name e) idx st' i = elem s c (e_name e) idx st j) /\
    (forall k, (forall i m, In i pre -> i_get zero s (PStr (e_name e) :: map (fun i => PInt i) idx ++ [PInt i]) = Ok (@RIdx T m) -> ~ In k (dm_nz m)) ->
       nth_error (ps_master st') k = nth_error (ps_master st) k).
Proof.
  intros Ho He Hs Hes Hd Hidx Hpos Hst ps ix.
  pose proof (ob_wf _ _ _ Ho) as Hw. pose proof (ob_built _ _ _ Ho) as Hc.
  pose proof (Forall2_len _ _ _ Hidx) as Hlen.
  set (ci := fun i : Z => KS (e_name e) :: map KI (idx ++ [i])).
  assert (Epi : forall i, PStr (e_name e) :: map (fun i => PInt i) idx ++ [PInt i] = @pidx T (ci i)).
  { intros i. unfold ci, pidx. simpl. f_equal. rewrite map_map, map_app. reflexivity. }
  assert (Hat : forall i, (0 <= i < d)%Z -> At s (ci i) e).
  { intros i Hi. apply At_here; [exact He|]. rewrite Hd. apply Forall2_app; [exact Hidx|]. constructor; [lia|constructor]. }
  assert (Hel : forall i, (0 <= i < d)%Z -> exists m, cmap_get (ci i) (cs_map c) = Some m /\ dm_sp m = e_sp e /\ DmOk m /\
      elem s c (e_name e) idx st i = Ok (RMat (vals zero (ps_master st) m))).
  { intros i Hi. destruct (map_get_leaf s c (ci i) e Hw Hc (At_Leaf _ _ _ (Hat i Hi) Hes)) as (m & Hm & Hsp). exists m.
    destruct (map_ok s c (ci i) m Hw Hc Hm) as (_ & Hok & _).
    repeat (split; [assumption|]). unfold elem. rewrite (Epi i). apply (getitem_at zero s c st (ci i) e m); auto. }
  assert (Hps : forall i, In i ps -> (0 <= i < d)%Z) by apply py_slice_positions_in.
  assert (Hread : exists L, getitem zero s (num_env c) ix st = Ok (RList L) /\ Forall2 (fun i x => elem s c (e_name e) idx st i = Ok x) ps L).
  { unfold ix. rewrite (getitem_slice zero s e ds1 d [] idx) by auto using Wf_NoDup.
    rewrite slice_range_positions by assumption. fold ps. cbn [rbind].
    assert (G : forall l, (forall i, In i l -> (0 <= i < d)%Z) -> exists L, Forall2 (fun i x => elem s c (e_name e) idx st i = Ok x) l L).
    { induction l as [|i l IH]; intros Hl; [exists []; constructor|]. destruct (IH (fun j h => Hl j (or_intror h))) as (L & HL).
      destruct (Hel i (Hl i (or_introl eq_refl))) as (m & _ & _ & _ & E). eexists. constructor; eauto. }
    destruct (G ps Hps) as (L & HL). exists L. split; [|exact HL].
    match goal with |- context [rmapM ?f ps] => assert (E : rmapM f ps = Ok L) end.
    { apply rmapM_of. revert HL. apply Forall2_impl. intros i x Hx. unfold elem in Hx.
      rewrite (getitem_int zero s e ds1 d [] idx) in Hx by auto using Wf_NoDup. exact Hx. }
    rewrite E. reflexivity. }
  destruct Hread as (L & HL & HF). pose proof (Forall2_len _ _ _ HF) as HLlen.
  destruct (setitem zero s (num_env c) ix (pay_of (RList L)) st) as [st' r] eqn:Hset.
  exists (RList L), st', r. split; [exact HL|]. split; [exact Hset|].
  assert (Hitem : forall i q, (0 <= i)%Z -> item_at (pay_of (RList L)) i = Some q -> exists j m, nth_error ps (Z.to_nat i) = Some j /\
     cmap_get (ci j) (cs_map c) = Some m /\ dm_sp m = e_sp e /\ DmOk m /\ q = PayMat (vals zero (ps_master st) m) /\
     elem s c (e_name e) idx st j = Ok (RMat (vals zero (ps_master st) m))).
  { intros i q Hi. cbn [pay_of item_at]. destruct (Z.ltb_spec i 0); [lia|]. rewrite nth_error_map.
    destruct (nth_error L (Z.to_nat i)) as [x|] eqn:Ex; [|discriminate]. intros [= <-].
    assert (Hlt : Z.to_nat i < length ps) by (rewrite HLlen; apply nth_error_Some; congruence).
    destruct (nth_error ps (Z.to_nat i)) as [j|] eqn:Ej; [|apply nth_error_None in Ej; lia].
    destruct (Forall2_nth _ _ _ HF _ _ Ej) as (x' & Hx' & Hjx). rewrite Ex in Hx'. injection Hx' as <-.
    destruct (Hel j (Hps j (nth_error_In _ _ Ej))) as (m & H1 & H2 & H3 & H4).
    exists j, m. rewrite H4 in Hjx. injection Hjx as <-. auto 10. }
  assert (Hpok : forall i q, item_at (pay_of (RList L)) i = Some q -> pay_ok q).
  { intros i q Hq. assert (Hin : exists x, In x L /\ q = pay_of x).
    { cbn [pay_of item_at] in Hq.
      assert (G : forall n, nth_error (map pay_of L) n = Some q -> exists x, In x L /\ q = pay_of x).
      { intros n Hn. apply nth_error_In in Hn. apply in_map_iff in Hn as (x & <- & Hx). eauto. }
      destruct (i <? 0)%Z; [destruct (_ <? 0)%Z; [discriminate|]|]; eapply G; eauto. }
    destruct Hin as (x & Hx & ->). apply In_nth_error in Hx as (n & Hn).
    assert (Hq' : item_at (pay_of (RList L)) (Z.of_nat n) = Some (pay_of x)).
    { cbn [pay_of item_at]. destruct (Z.ltb_spec (Z.of_nat n) 0); [lia|]. rewrite Nat2Z.id. now apply map_nth_error. }
    destruct (Hitem (Z.of_nat n) (pay_of x) (Nat2Z.is_nonneg n) Hq') as (j & m & _ & _ & Hsp & Hok & -> & _). cbn. destruct Hok as [Ha Hb]. split; [exact Ha|].
    unfold vals. cbn. rewrite map_length. exact Hb. }
  destruct (slice_write_exact s c st st' e ds1 d idx sl _ r Ho He Hs Hd Hidx Hpos Hst Hpok Hset)
    as (pre & post & H1 & H2 & H3 & H4 & H5 & H6 & H7 & H8).
  fold ps in H1. exists pre, post. repeat (split; [assumption|]).
  split; [|split; [|exact H8]].
  - intros i post' ->. destruct (Z_lt_le_dec i (Z.of_nat (length ps))) as [Hlt|Hge]; [exfalso|exact Hge].
    assert (Hi : (0 <= i < d)%Z) by (apply Hps; rewrite H1; apply in_app_iff; right; now left).
    destruct (item_at (pay_of (RList L)) i) as [q|] eqn:Eq.
    + apply (H6 i post' eq_refl q Eq). destruct (Hitem i q (proj1 Hi) Eq) as (j & m & _ & _ & Hsp & _ & -> & _).
      destruct (Hel i Hi) as (mi & Hmi & Hspi & _). exists mi, (vals zero (ps_master st) m).
      split; [|split; [reflexivity|]].
      * rewrite (Epi i), (i_get_at zero s c (ci i) e Hw Hc (Hat i Hi)), Hmi. reflexivity.
      * apply fits_same. cbn. congruence.
    + cbn [pay_of item_at] in Eq. destruct (Z.ltb_spec i 0); [lia|]. apply nth_error_None in Eq. rewrite map_length in Eq. lia.
  - intros i Hi. destruct (H7 i Hi) as (q & Hq & m & M & R & Hm & HM & Hf & HR & Hsp & _ & Hsame).
    assert (Hid : (0 <= i < d)%Z) by (apply Hps; rewrite H1; apply in_app_iff; now left).
    destruct (Hitem i q (proj1 Hid) Hq) as (j & mj & Hj & _ & Hspj & _ & -> & Hej). exists j. split; [exact Hj|].
    unfold elem at 1. rewrite HR, Hej. cbn in HM. injection HM as <-. f_equal. f_equal. apply Hsame. cbn.
    destruct (Hel i Hid) as (mi & Hmi & Hspi & _). rewrite (Epi i), (i_get_at zero s c (ci i) e Hw Hc (Hat i Hid)), Hmi in Hm.
    injection Hm as <-. congruence.
Qed.

(** It is accepted exactly when the slice selects the first [k] repeats, in order or reversed. *)
Theorem slice_back_accepted s c (st : pstate) e ds1 d idx sl :
  Obj s c st -> In e (s_entries s) -> e_symm e = false -> e_struct e = None -> e_dims e = ds1 ++ [d] -> InDims idx ds1 -> (0 <= d)%Z -> sl_step sl <> Some 0%Z ->
  let ps := py_slice_positions d sl in
  let k := Z.of_nat (length ps) in
  let ix := PStr (e_name e) :: map (fun i => PInt i) idx ++ [PSlc sl] in
  exists R st' r, getitem zero s (num_env c) ix st = Ok R /\ setitem zero s (num_env c) ix (pay_of R) st = (st', r) /\
    ((exists v, r = Ok v) <-> ps = pyrange k \/ ps = rev (pyrange k)) /\
    ((exists v, r = Ok v) \/ r = Err EException) /\
    (ps = pyrange k -> forall i, (0 <= i < k)%Z -> elem s c (e_name e) idx st' i = elem s c (e_name e) idx st i) /\
    (ps = rev (pyrange k) -> forall i, (0 <= i < k)%Z -> elem s c (e_name e) idx st' i = elem s c (e_name e) idx st (k - 1 - i)).
Proof.
  intros Ho He Hs Hes Hd Hidx Hpos Hst ps k ix.
  destruct (slice_back s c st e ds1 d idx sl Ho He Hs Hes Hd Hidx Hpos Hst) as (R & st' & r & H1 & H2 & pre & post & H3 & H4 & H5 & _ & _ & H6 & H7 & _).
  fold ps ix in H1, H2, H3, H6, H7. exists R, st', r. split; [exact H1|]. split; [exact H2|].
  assert (Hall : (ps = pyrange k \/ ps = rev (pyrange k)) -> post = []).
  { intros Hp. destruct post as [|i post']; [reflexivity|]. specialize (H6 i post' eq_refl).
    assert (Hin : In i ps) by (rewrite H3; apply in_app_iff; right; now left).
    assert (In i (pyrange k)) by (destruct Hp as [E|E]; rewrite E in Hin; [exact Hin|now apply in_rev]).
    apply in_pyrange in H. fold k in H6. lia. }
  split; [|split; [|split]].
  - rewrite H4. split; [|exact Hall]. intros ->. apply positions_initial. intros i Hi. fold ps. fold ps in Hi. rewrite H3, app_nil_r in Hi.
    destruct (H7 i Hi) as (j & Hj & _). assert (Z.to_nat i < length ps) by (apply nth_error_Some; congruence).
    pose proof (py_slice_positions_in d sl i) as Hb. fold ps in Hb. rewrite H3, app_nil_r in Hb. specialize (Hb Hi). lia.
  - destruct post; [left; now apply H4|right; apply H5; discriminate].
  - intros E i Hi. rewrite (Hall (or_introl E)), app_nil_r in H3.
    assert (Hin : In i pre) by (rewrite <- H3, E; now apply in_pyrange).
    destruct (H7 i Hin) as (j & Hj & ->). rewrite E, nth_error_pyrange in Hj by exact Hi. now injection Hj as <-.
  - intros E i Hi. rewrite (Hall (or_intror E)), app_nil_r in H3.
    assert (Hin : In i pre) by (rewrite <- H3, E; apply in_rev; rewrite rev_involutive; now apply in_pyrange).
    destruct (H7 i Hin) as (j & Hj & ->). f_equal. rewrite E in Hj.
    assert (Hlen : length (pyrange k) = length ps) by (rewrite pyrange_length; unfold k; lia).
    assert (Hn : nth_error (rev (pyrange k)) (Z.to_nat i) = nth_error (pyrange k) (Z.to_nat (k - 1 - i))).
    { rewrite (nth_error_nth' _ 0%Z) by (rewrite rev_length; lia). rewrite (nth_error_nth' _ 0%Z) by lia. f_equal.
      rewrite rev_nth by lia. f_equal. lia. }
    rewrite Hn, nth_error_pyrange in Hj by lia. now injection Hj as <-.
Qed.

(** In order, it changes nothing. *)
Theorem slice_back_same s c (st st' : pstate) e ds1 d idx sl R r :
  Obj s c st -> In e (s_entries s) -> e_symm e = false -> e_struct e = None -> e_dims e = ds1 ++ [d] -> InDims idx ds1 -> (0 <= d)%Z -> sl_step sl <> Some 0%Z ->
  let ps := py_slice_positions d sl in
  let ix := PStr (e_name e) :: map (fun i => PInt i) idx ++ [PSlc sl] in
  ps = pyrange (Z.of_nat (length ps)) ->
  getitem zero s (num_env c) ix st = Ok R -> setitem zero s (num_env c) ix (pay_of R) st = (st', r) -> st' = st.
Proof.
  intros Ho He Hs Hes Hd Hidx Hpos Hst ps ix Hps HR Hset. pose proof (ob_wf _ _ _ Ho) as Hw. pose proof (ob_built _ _ _ Ho) as Hc.
  destruct (slice_back s c st e ds1 d idx sl Ho He Hs Hes Hd Hidx Hpos Hst) as (R0 & st0 & r0 & H1 & H2 & pre & post & H3 & _ & _ & H4 & H5 & _ & H7 & H8).
  fold ix in H1, H2. fold ps in H3, H7. rewrite HR in H1. injection H1 as <-. rewrite Hset in H2. injection H2 as <- <-.
  set (ci := fun i : Z => KS (e_name e) :: map KI (idx ++ [i])).
  assert (Epi : forall i, PStr (e_name e) :: map (fun i => PInt i) idx ++ [PInt i] = @pidx T (ci i)).
  { intros i. unfold ci, pidx. simpl. f_equal. rewrite map_map, map_app. reflexivity. }
  assert (Hin : forall i, In i pre -> (0 <= i < d)%Z /\ (0 <= i < Z.of_nat (length ps))%Z).
  { intros i Hi. assert (Hi' : In i ps) by (rewrite H3; apply in_app_iff; now left). split; [now apply py_slice_positions_in in Hi'|].
    rewrite Hps in Hi'. now apply in_pyrange in Hi'. }
  assert (Hat : forall i, (0 <= i < d)%Z -> At s (ci i) e).
  { intros i Hi. apply At_here; [exact He|]. rewrite Hd. apply Forall2_app; [exact Hidx|]. constructor; [lia|constructor]. }
  rewrite H4. destruct st as [v mi sg]. unfold with_master. cbn [ps_master ps_mirror ps_storage] in *. f_equal.
  apply nth_error_ext. intros n.
  destruct (in_dec Nat.eq_dec n (flat_map (fun i => match cmap_get (ci i) (cs_map c) with Some m => dm_nz m | None => [] end) pre)) as [Hn|Hn].
  - apply in_flat_map in Hn as (i & Hi & Hn). destruct (cmap_get (ci i) (cs_map c)) as [m|] eqn:Em; [|destruct Hn].
    destruct (Hin i Hi) as [Hid Hik]. destruct (H7 i Hi) as (j & Hj & E). rewrite Hps, nth_error_pyrange in Hj by exact Hik. injection Hj as <-.
    assert (Ho' : Obj s c st') by (constructor; [exact Hw|exact Hc|rewrite H5; apply (ob_len _ _ _ Ho)]).
    unfold elem in E. rewrite (Epi i), (getitem_at zero s c st' (ci i) e m Ho' (Hat i Hid) Hs Em), (getitem_at zero s c _ (ci i) e m Ho (Hat i Hid) Hs Em) in E.
    cbn [ps_master] in E. unfold vals, dm_map in E. injection E as E.
    assert (G : nth n (ps_master st') zero = nth n v zero).
    { clear - E Hn. induction (dm_nz m) as [|x l IH]; [destruct Hn|]. simpl in E. injection E as E1 E2. destruct Hn as [<-|Hn]; auto. }
    destruct (map_ok s c (ci i) m Hw Hc Em) as (_ & _ & _ & Hb & _). rewrite Forall_forall in Hb. specialize (Hb n Hn).
    pose proof (ob_len _ _ _ Ho) as Hl. cbn [ps_master] in Hl.
    rewrite (nth_error_nth' (ps_master st') zero) by lia. rewrite (nth_error_nth' v zero) by lia. now f_equal.
  - apply H8. intros i m Hi Hm Hnm. apply Hn. apply in_flat_map. exists i. split; [exact Hi|].
    rewrite (Epi i) in Hm. destruct (Hin i Hi) as [Hid _]. rewrite (i_get_inv zero s c (ci i) e m Hw Hc (Hat i Hid) Hm). exact Hnm.
Qed.
End P.
