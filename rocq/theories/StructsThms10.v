(** Pickling (C33). *)
From Verif Require Import PyBase IndexModel DMModel StructModel StructSpec PowerModel PowerSpec
  IndexProofs StructProofs LayoutProofs LayoutThms LayoutExamples DMProofs PowerProofs PowerThms SliceProofs PowerThms2 PowerThms3 PowerThms4 PowerThms5
  EntryModel EntrySpec EntryProofs StructsModel StructsSpec StructsThms1 StructsThms2 StructsThms3 StructsThms4 StructsThms5.
From Coq Require Import Permutation.
Open Scope nat_scope.

(** ** The rebuilt structure has the same layout *)
Lemma pickle_fields e : e_name (pickle_e e) = e_name e /\ e_dims (pickle_e e) = e_dims e /\ e_sp (pickle_e e) = e_sp e /\ e_symm (pickle_e e) = e_symm e /\
  e_orig (pickle_e e) = None /\ e_struct (pickle_e e) = option_map pickle_s (e_struct e) /\ e_shape (pickle_e e) = option_map (map pickle_d) (e_shape e).
Proof. destruct e as [n d [s|] sp sy og [l|]]; simpl; repeat split; reflexivity. Qed.
Lemma pickle_name e : e_name (pickle_e e) = e_name e. Proof. apply pickle_fields. Qed.
Lemma pickle_entries s : s_entries (pickle_s s) = map pickle_e (s_entries s).
Proof. destruct s; reflexivity. Qed.
Lemma pickle_order s : s_order (pickle_s s) = s_order s.
Proof. destruct s; reflexivity. Qed.

Lemma dict_set_map {V W} (f : V -> W) k v d : dict_set k (f v) (map (fun kv => (fst kv, f (snd kv))) d) = map (fun kv => (fst kv, f (snd kv))) (dict_set k v d).
Proof. induction d as [|[k' v'] d IH]; [reflexivity|]. simpl. destruct (String.eqb k k'); [reflexivity|]. simpl. now rewrite IH. Qed.
Lemma pydict_map {V W} (f : V -> W) l : pydict (map (fun kv => (fst kv, f (snd kv))) l) = map (fun kv => (fst kv, f (snd kv))) (pydict l).
Proof.
  unfold pydict. change (@nil (string * W)) with (map (fun kv : string * V => (fst kv, f (snd kv))) []). generalize (@nil (string * V)) as d.
  induction l as [|[k v] l IH]; intros d; [reflexivity|]. simpl. rewrite dict_set_map. apply IH.
Qed.
Lemma dict_get_map {V W} (f : V -> W) k d : dict_get k (map (fun kv => (fst kv, f (snd kv))) d) = option_map f (dict_get k d).
Proof. induction d as [|[k' v'] d IH]; [reflexivity|]. simpl. destruct (String.eqb k k'); [reflexivity|exact IH]. Qed.

Lemma pickle_traverse s : forall limit, s_traverse (pickle_s s) limit = s_traverse s limit.
Proof.
  induction s as [es order IH _] using structure_ind2. intros limit. simpl. f_equal. f_equal. rewrite map_map. apply map_ext_in. intros e He.
  destruct e as [n d st sp sy og sh]. simpl. do 2 f_equal. destruct st as [s'|]; [|reflexivity]. destruct (_ =? _)%Z; [reflexivity|]. eapply IH; [exact He|reflexivity].
Qed.
Lemma pickle_dict s : s_dict (pickle_s s) = map (fun kv => (fst kv, pickle_e (snd kv))) (s_dict s).
Proof.
  unfold s_dict. rewrite <- pydict_map, pickle_entries, !map_map. f_equal. apply map_ext. intros e. simpl. now rewrite pickle_name.
Qed.
Lemma pickle_lookup names : forall s, getStructEntryByStructIndex names (pickle_s s) = rmap pickle_e (getStructEntryByStructIndex names s).
Proof.
  induction names as [|n rest IH]; intros s; [reflexivity|]. cbn [getStructEntryByStructIndex]. rewrite pickle_dict, dict_get_map.
  destruct (dict_get n (s_dict s)) as [e|]; [|reflexivity]. cbn [option_map]. destruct rest; [reflexivity|].
  destruct (pickle_fields e) as (_ & _ & _ & _ & _ & -> & _). destruct (e_struct e) as [s'|]; [apply IH|reflexivity].
Qed.
Lemma pickle_build s l : forall b, build_loop (pickle_s s) l b = build_loop s l b.
Proof.
  induction l as [|i l IH]; intros b; [reflexivity|]. cbn [build_loop]. unfold build_step at 1, getStructEntryByCanonicalIndex. rewrite pickle_lookup.
  unfold build_step at 1, getStructEntryByCanonicalIndex. destruct (getStructEntryByStructIndex (cidx_names i) s) as [e|]; [|reflexivity]. cbn [rmap rbind].
  destruct (pickle_fields e) as (_ & _ & -> & _). destruct (canonicalIndexAncestors i); [|reflexivity]. cbn [rbind]. apply IH.
Qed.
Definition repickle (c : cstruct) : cstruct := CStruct (pickle_s (cs_struct c)) (cs_size c) (cs_map c) (cs_lut c).
Lemma pickle_casadi s : casadi_structure (pickle_s s) = rmap repickle (casadi_structure s).
Proof.
  unfold casadi_structure, traverseCanonicalIndex. rewrite pickle_build, pickle_traverse. destruct (build_loop _ _ _); reflexivity.
Qed.

(** ** The traversals agree *)
Section P.
Context {T : Type} (zero : T).
Notation rval := (rval T).
Notation pel := (pel T).
Notation pay := (pay T).
Notation env := (env T).
Notation pstate := (pstate T).
Notation einfo := (einfo T).
Notation clos := (@clos T).

Definition meq {A} (m m' : @M T A) : Prop := forall st, m st = m' st.
Lemma meq_refl {A} (m : @M T A) : meq m m.
Proof. intros st. reflexivity. Qed.
Lemma meq_bind {A B} (m m' : @M T A) (k k' : A -> @M T B) : meq m m' -> (forall a, meq (k a) (k' a)) -> meq (mbind m k) (mbind m' k').
Proof. intros H Hk st. unfold mbind. rewrite H. destruct (m' st) as [s [a|e]]; [apply Hk|reflexivity]. Qed.
Lemma meq_bind_lift {A B} (r : res A) (k k' : A -> @M T B) : (forall a, r = Ok a -> meq (k a) (k' a)) -> meq (mbind (mlift r) k) (mbind (mlift r) k').
Proof. intros H st. unfold mbind, mlift. destruct r; [now apply H|reflexivity]. Qed.
Lemma meq_wrap {A} (m m' : @M T A) : meq m m' -> meq (mwrap m) (mwrap m').
Proof. intros H st. unfold mwrap. now rewrite H. Qed.
Lemma meq_mmapM {A A' B} (R : A -> A' -> Prop) (f : A -> @M T B) (f' : A' -> @M T B) l l' : Forall2 R l l' -> (forall a a', R a a' -> meq (f a) (f' a')) -> meq (mmapM f l) (mmapM f' l').
Proof.
  intros HF H. induction HF as [|a a' l l' Ha HF IH]; [apply meq_refl|]. simpl. apply meq_bind; [now apply H|]. intros b. apply meq_bind; [exact IH|]. intros; apply meq_refl.
Qed.
Lemma meq_mmapM_same {A B} (f f' : A -> @M T B) l : (forall a, meq (f a) (f' a)) -> meq (mmapM f l) (mmapM f' l).
Proof. intros H. apply (meq_mmapM eq); [induction l; constructor; auto|]. intros a _ <-. apply H. Qed.
Lemma meq_mdict (m m' : @M T (list (string * rval))) : meq m m' -> meq (mdict m) (mdict m').
Proof. intros H. apply meq_bind; [exact H|]. intros; apply meq_refl. Qed.

(** Entries that differ only in 'originalsparsity'; shape structures that answer alike. *)
Definition oeq (f f' : option (bool -> list pel -> res rval)) : Prop :=
  match f, f' with Some g, Some g' => forall b l, g b l = g' b l | None, None => True | _, _ => False end.
Definition ieq (e e' : einfo) : Prop :=
  ei_symm e' = ei_symm e /\ match ei_del e, ei_del e' with Some l, Some l' => Forall2 oeq l l' | None, None => True | _, _ => False end.
Definition oieq (e e' : option einfo) : Prop := match e, e' with Some a, Some b => ieq a b | None, None => True | _, _ => False end.

Lemma delegate_eq e e' pos flat arg : oieq e e' -> delegate e' pos flat arg = delegate e pos flat arg.
Proof.
  destruct e as [e|], e' as [e'|]; simpl; try tauto. intros [_ H]. destruct (ei_del e) as [l|], (ei_del e') as [l'|]; try tauto.
  assert (G : match nth_error l pos, nth_error l' pos with Some a, Some b => oeq a b | None, None => True | _, _ => False end).
  { clear -H. revert pos. induction H as [|a b l l' Hab _ IH]; intros [|pos]; simpl; auto. apply IH. }
  destruct (nth_error l pos) as [[f|]|], (nth_error l' pos) as [[f'|]|]; simpl in G; try tauto. now rewrite <- G.
Qed.
Lemma delegation_eq e e' pos a : oieq e e' -> delegation e' pos a = delegation e pos a.
Proof.
  intros H. destruct a; try reflexivity; cbn [delegation]; try (now apply delegate_eq).
  destruct (ck_ints l); [reflexivity|]. destruct (forallb _ _); [now apply delegate_eq|reflexivity].
Qed.
Lemma pei_eq e e' flip i ex : oieq e e' -> performExtraIndex e' flip i ex = performExtraIndex e flip i ex.
Proof.
  intros H. induction ex as [|a ex IH]; [reflexivity|].
  destruct a; cbn [performExtraIndex]; rewrite ?IH, ?(delegation_eq _ _ _ _ H); try reflexivity;
    destruct ex as [|b [|]]; rewrite ?(delegation_eq _ _ _ _ H); try reflexivity.
Qed.
Lemma meq_dispatch (en : env) md p ci ex e e' : oieq e e' -> md <> MInject -> (md = MSet -> is_symm e = false) ->
  meq (dispatch zero en md p ci ex e) (dispatch zero en md p ci ex e').
Proof.
  intros H Hm Hs. assert (E : is_symm e' = is_symm e). { destruct e as [e|], e' as [e'|]; simpl in *; try tauto. apply H. }
  destruct md; simpl.
  - unfold getter. destruct (cmap_get ci (en_map en)); [|apply meq_refl]. rewrite (pei_eq e e') by exact H. rewrite E. apply meq_refl.
  - unfold setter. rewrite E, (Hs eq_refl). apply meq_bind_lift. intros m _. destruct (cmap_get ci (en_map en)); [|apply meq_refl]. rewrite (pei_eq e e') by exact H. apply meq_refl.
  - unfold flatget, imget. destruct (cmap_get ci (en_map en)); [|apply meq_refl]. rewrite (pei_eq e e') by exact H. apply meq_refl.
  - unfold imget. destruct (cmap_get ci (en_map en)); [|apply meq_refl]. rewrite (pei_eq e e') by exact H. apply meq_refl.
  - congruence.
Qed.

Definition okd (N : Prop) (md : mode) : Prop := md <> MInject /\ (md = MSet -> N).
Definition ceq (N : Prop) (f f' : clos) : Prop := forall en md pi ci p, okd N md -> meq (f en md pi ci p) (f' en md pi ci p).
Lemma okd_inner N md md' : okd N md -> inner md = Ok md' -> okd N md'.
Proof. intros [A B] H. destruct md; simpl in H; try discriminate; injection H as <-; split; try discriminate; auto. Qed.

Lemma meq_travD (en : env) (e e' : einfo) (sub sub' : option clos) (N : Prop) : ieq e e' -> (N -> ei_symm e = false) ->
  match sub, sub' with Some f, Some f' => ceq N f f' | None, None => True | _, _ => False end ->
  forall dims md pi ci p, okd N md -> meq (travD zero en e sub dims md pi ci p) (travD zero en e' sub' dims md pi ci p).
Proof.
  intros He HN Hsub. induction dims as [|d ds IH]; intros md pi ci p Hm.
  - simpl. apply meq_wrap. destruct Hm as [Hm1 Hm2]. destruct pi; [apply meq_dispatch; auto; intros; apply HN; auto|].
    destruct sub, sub'; try tauto; [apply Hsub; split; auto|apply meq_dispatch; auto; intros; apply HN; auto].
  - cbn [travD].
    assert (Hmany : forall md ci p l rest, okd N md -> meq (rs <- mmapM (fun k => match k with
                     | KS _ => merr EType
                     | KI i => p' <- mlift (payloadUnpack p k) ;;
                               travD zero en e sub ds md rest (ci ++ [KI (canonical i d)]) p'
                     end) l ;; mret (RList rs)) (rs <- mmapM (fun k => match k with
                     | KS _ => merr EType
                     | KI i => p' <- mlift (payloadUnpack p k) ;;
                               travD zero en e' sub' ds md rest (ci ++ [KI (canonical i d)]) p'
                     end) l ;; mret (RList rs))).
    { intros md' ci' p' l rest Hm'. apply meq_bind; [|intros; apply meq_refl]. apply meq_mmapM_same. intros [|]; [apply meq_refl|].
      apply meq_bind_lift. intros. now apply IH. }
    revert md ci p Hm. induction pi as [|a rest IHp]; intros md ci p Hm; apply meq_wrap.
    + apply meq_bind_lift. intros. now apply Hmany.
    + destruct a; try apply meq_refl; try (now apply Hmany).
      * now apply IH.
      * apply meq_bind_lift. intros. now apply Hmany.
      * apply meq_bind_lift. intros md' E. apply meq_bind; [apply IHp; eapply okd_inner; eauto|]. intros r. apply meq_refl.
Qed.

Definition deq (N : Prop) (d d' : list (string * clos)) : Prop := Forall2 (fun x y => fst y = fst x /\ ceq N (snd x) (snd y)) d d'.
Lemma deq_look N d d' k : deq N d d' -> match dict_get k d, dict_get k d' with Some f, Some f' => ceq N f f' | None, None => True | _, _ => False end.
Proof.
  intros H. induction H as [|[a f] [b g] d d' [E Hc] _ IH]; [exact I|]. simpl in *. subst b. destruct (String.eqb k a); assumption.
Qed.
Lemma meq_look_bind {B} N d d' k (g g' : clos -> @M T B) : deq N d d' -> (forall f f', ceq N f f' -> meq (g f) (g' f')) ->
  meq (mbind (look d k) g) (mbind (look d' k) g').
Proof.
  intros H Hg. pose proof (deq_look N d d' k H) as L. unfold look. destruct (dict_get k d), (dict_get k d'); try tauto; [|apply meq_refl]. exact (Hg _ _ L).
Qed.
Lemma deq_set N k f f' d d' : deq N d d' -> ceq N f f' -> deq N (dict_set k f d) (dict_set k f' d').
Proof.
  intros H Hf. induction H as [|[a g] [b g'] d d' [E Hc] H IH]; [repeat constructor; auto|]. simpl in *. subst b.
  destruct (String.eqb k a); constructor; auto.
Qed.
Lemma deq_pydict N l l' : deq N l l' -> deq N (pydict l) (pydict l').
Proof.
  unfold pydict. assert (G : forall d d', deq N d d' -> deq N l l' -> deq N (fold_left (fun d kv => dict_set (fst kv) (snd kv) d) l d) (fold_left (fun d kv => dict_set (fst kv) (snd kv) d) l' d')).
  { revert l'. induction l as [|[a f] l IH]; intros l' d d' Hd Hl; inversion Hl as [|x [b g] ? ? [E Hc] Hr]; subst; [exact Hd|]. simpl in *. subst. apply IH; auto. now apply deq_set. }
  apply G. constructor.
Qed.

Lemma meq_travS_body N d d' keys : deq N d d' -> ceq N (travS_body zero d keys) (travS_body zero d' keys).
Proof.
  intros Hd en md pi.
  assert (Hdict : forall md ci p rest, okd N md ->
     meq (match p with
    | PayDict kv =>
        mdict (mmapM (fun x => f <- look d (fst x) ;;
                               r <- f en md rest (ci ++ [KS (fst x)]) (snd x) ;; mret (fst x, r)) kv)
    | _ =>
        mdict (mmapM (fun x => r <- snd x en md rest (ci ++ [KS (fst x)]) p ;; mret (fst x, r)) d)
    end) (match p with
    | PayDict kv =>
        mdict (mmapM (fun x => f <- look d' (fst x) ;;
                               r <- f en md rest (ci ++ [KS (fst x)]) (snd x) ;; mret (fst x, r)) kv)
    | _ =>
        mdict (mmapM (fun x => r <- snd x en md rest (ci ++ [KS (fst x)]) p ;; mret (fst x, r)) d')
    end)).
  { intros md' ci p rest Hm. destruct p; apply meq_mdict;
      try (eapply meq_mmapM; [exact Hd|]; intros [k f] [k' f'] [E Hc]; simpl in E; subst k'; cbn [fst snd] in *; apply meq_bind; [now apply Hc|]; intros; apply meq_refl).
    apply meq_mmapM_same. intros [k v]. eapply meq_look_bind; [exact Hd|]. intros f f' Hf. apply meq_bind; [now apply Hf|]. intros; apply meq_refl. }
  revert md. induction pi as [|a rest IH]; intros md ci p Hm; cbn [travS_body]; apply meq_wrap.
  - apply meq_refl.
  - destruct a; try apply meq_refl; try (now apply Hdict).
    + eapply meq_look_bind; [exact Hd|]. intros f f' Hf. now apply Hf.
    + apply meq_bind; [|intros; apply meq_refl]. apply meq_mmapM_same. intros [i k]. apply meq_bind_lift. intros. now apply IH.
    + apply meq_bind; [|intros; apply meq_refl]. apply meq_mmapM_same. intros [i k]. eapply meq_look_bind; [exact Hd|]. intros f f' Hf.
      apply meq_bind_lift. intros. now apply Hf.
    + destruct p; apply meq_mdict, meq_mmapM_same; intros z; (eapply meq_look_bind; [exact Hd|]); intros f f' Hf; (apply meq_bind; [now apply Hf|]); intros; apply meq_refl.
    + apply meq_bind_lift. intros md' E. apply meq_bind; [apply IH; eapply okd_inner; eauto|]. intros r. apply meq_refl.
Qed.

Lemma index_getter_eq s (f f' : clos) : ceq (NoSymm s) f f' -> forall b l, index_getter s f b l = index_getter (pickle_s s) f' b l.
Proof.
  intros H b l. unfold index_getter. rewrite pickle_casadi. destruct (casadi_structure s) as [c|]; [|reflexivity]. cbn [rmap rbind].
  change (cs_map (repickle c)) with (cs_map c). rewrite H; [reflexivity|]. destruct b; split; discriminate.
Qed.

Theorem meq_travS s : ceq (NoSymm s) (travS zero s) (travS zero (pickle_s s)).
Proof.
  induction s as [es order IH1 IH2] using structure_ind2. intros en md pi ci p Hm. 
  rewrite !travS_eq. unfold s_keys. rewrite pickle_order. refine (meq_travS_body (NoSymm (mkStruct es order)) _ _ _ _ en md pi ci p Hm). unfold sdictT. rewrite pickle_entries, map_map. apply deq_pydict.
  clear en md pi ci p Hm. unfold deq. cbn [s_entries s_order].
  assert (G : forall e, In e es -> ceq (NoSymm (mkStruct es order)) (travE zero e) (travE zero (pickle_e e))).
  { intros e He en md pi ci p Hm. rewrite !travE_eq. destruct (pickle_fields e) as (_ & -> & _ & Esy & Eor & Est & Esh).
    assert (Hsub : forall s', e_struct e = Some s' -> NoSymm (mkStruct es order) -> NoSymm s') by (intros s' Es' HN; inversion HN; subst; eauto).
    apply (meq_travD en (info zero e) (info zero (pickle_e e)) _ _ (NoSymm (mkStruct es order))).
    - unfold info. split; [exact Esy|]. cbn [ei_del]. rewrite Esh. destruct (e_shape e) as [l|] eqn:El; [|exact I]. cbn [option_map]. rewrite map_map.
      assert (Hl : forall d, In d l -> oeq (match d with SDS s' => Some (index_getter s' (travS zero s')) | SDI _ => None end)
        (match pickle_d d with SDS s' => Some (index_getter s' (travS zero s')) | SDI _ => None end)).
      { intros [s'|k] Hin; [|exact I]. cbn. intros b arg. apply index_getter_eq. eapply IH2; eauto. }
      clear -Hl. induction l as [|d l IH]; constructor; [apply Hl; now left|]. apply IH. intros; apply Hl; now right.
    - intros HN. inversion HN; subst. cbn [info ei_symm]. auto.
    - unfold subT. rewrite Est. destruct (e_struct e) as [s'|] eqn:Es'; [|exact I]. cbn [option_map].
      intros en' md' pi' ci' p' [Hm1 Hm2]. apply (IH1 e s' He Es'). split; [exact Hm1|]. intros E. apply (Hsub s'); auto.
    - exact Hm. }
  clear IH1 IH2. generalize (NoSymm (mkStruct es order)) as N, G. clear G. intros N. induction es as [|e es IH]; intros G; [constructor|]. cbn [map].
  constructor; [cbn [fst snd]; split; [apply pickle_name|apply G; now left]|]. apply IH. intros; apply G; now right.
Qed.

(** ** C33 *)
Theorem unpickle_layout s c : Wf s -> casadi_structure s = Ok c ->
  exists c', unpickle s = Ok c' /\ cs_size c' = cs_size c /\ cs_map c' = cs_map c /\
    (forall i m, getCanonicalIndex c' i m = getCanonicalIndex c i m) /\ (forall m, canonicalIndices c' m = canonicalIndices c m) /\
    (forall pi, i_get zero (cs_struct c') pi = i_get zero s pi) /\ (forall pi, f_get zero (cs_struct c') pi = f_get zero s pi).
Proof.
  intros Hw Hc. exists (repickle c).
  assert (Ec : cs_struct c = s). { destruct (casadi_structure_ok s Hw) as (c0 & E0 & H0 & _). congruence. }
  split.
  - unfold unpickle, structure_init. rewrite map_map. assert (Hn : map (fun e => e_name (pickle_e e)) (s_entries s) = map e_name (s_entries s)) by (apply map_ext, pickle_name).
    rewrite Hn. assert (Ho : forallb (fun n => str_mem n (map e_name (s_entries s))) (flat_map oelem_names (s_order s)) = true).
    { apply forallb_forall. intros n Hin. apply str_mem_In. destruct Hw as [es order Hnd Hp Hsp Hsub]. simpl in *. eapply Permutation_in; [exact Hp|exact Hin]. }
    rewrite Ho. cbn [rbind]. replace (mkStruct (map pickle_e (s_entries s)) (s_order s)) with (pickle_s s) by (destruct s; reflexivity).
    rewrite pickle_casadi, Hc. reflexivity.
  - split; [reflexivity|]. split; [reflexivity|]. split; [reflexivity|]. split; [reflexivity|].
    cbn [repickle cs_struct]. rewrite Ec. split; intros pi; symmetry; apply index_getter_eq, meq_travS.
Qed.

Theorem unpickle_object s c (v : list T) : Wf s -> casadi_structure s = Ok c -> length v = cs_size c ->
  exists o', unpickle_obj (plain_obj c v) = Ok o' /\ so_cat o' = v /\
    (forall pi, so_get zero o' pi = so_get zero (plain_obj c v) pi) /\
    (NoSymm s -> forall pi p, so_cat (fst (so_set zero o' pi p)) = so_cat (fst (so_set zero (plain_obj c v) pi p)) /\
       snd (so_set zero o' pi p) = snd (so_set zero (plain_obj c v) pi p)).
Proof.
  intros Hw Hc Hl. assert (Ec : cs_struct c = s). { destruct (casadi_structure_ok s Hw) as (c0 & E0 & H0 & _). congruence. }
  unfold unpickle_obj. cbn [plain_obj so_c]. rewrite Ec. 
  assert (Hu : unpickle s = Ok (repickle c)).
  { unfold unpickle, structure_init. rewrite map_map. assert (Hn : map (fun e => e_name (pickle_e e)) (s_entries s) = map e_name (s_entries s)) by (apply map_ext, pickle_name).
    rewrite Hn. assert (Ho : forallb (fun n => str_mem n (map e_name (s_entries s))) (flat_map oelem_names (s_order s)) = true).
    { apply forallb_forall. intros n Hin. apply str_mem_In. destruct Hw as [es order Hnd Hp Hsp Hsub]. simpl in *. eapply Permutation_in; [exact Hp|exact Hin]. }
    rewrite Ho. cbn [rbind]. replace (mkStruct (map pickle_e (s_entries s)) (s_order s)) with (pickle_s s) by (destruct s; reflexivity).
    rewrite pickle_casadi, Hc. reflexivity. }
  rewrite Hu. cbn [rbind]. cbn [plain_obj so_cat so_st ps_master repickle cs_size]. rewrite Hl, Nat.eqb_refl. cbn [negb].
  eexists. split; [reflexivity|]. split; [reflexivity|]. split.
  - intros pi. unfold so_get, getitem, plain_obj. cbn [so_c so_env so_st repickle cs_struct cs_map]. rewrite Ec. unfold num_env. rewrite <- meq_travS; [reflexivity|]. split; discriminate.
  - intros HN pi p. unfold so_set, setitem, plain_obj. cbn [so_c so_env so_st repickle cs_struct cs_map]. rewrite Ec. unfold num_env.
    rewrite <- meq_travS; [|split; [discriminate|auto]]. destruct (travS zero s _ MSet pi [] p _); split; reflexivity.
Qed.
End P.
