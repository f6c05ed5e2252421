(** Writing: write-back, lists, atomicity, extra indices (C17-C19, C28). *)
From Verif Require Import PyBase IndexModel DMModel StructModel StructSpec PowerModel PowerSpec
  IndexProofs StructProofs LayoutProofs LayoutThms LayoutExamples DMProofs PowerProofs PowerThms SliceProofs PowerThms2.

Section P.
Context {T : Type} (zero : T).
Notation rval := (rval T).
Notation pel := (pel T).
Notation pay := (pay T).
Notation env := (env T).
Notation einfo := (einfo T).
Notation pstate := (pstate T).
Notation clos := (@clos T).

(** ** Extra indices *)
Lemma pei_ok ei flip m ex r : DmOk m -> Forall (fun p => match p with PFun _ => False | _ => True end) ex ->
  @performExtraIndex T ei flip (RIdx m) ex = Ok r -> exists m', r = RIdx m' /\ DmOk m' /\ incl (dm_nz m') (dm_nz m).
Proof.
  intros Hm Hex. 
  assert (G1 : forall a r, getitem1 (RIdx m) a = Ok r -> exists m', r = @RIdx T m' /\ DmOk m' /\ incl (dm_nz m') (dm_nz m)).
  { intros [a|l|] r0; cbn [getitem1]; [| |discriminate].
    - destruct (dm_get1 m a) as [m'|] eqn:E; simpl; [|discriminate]. intros [= <-].
      exists m'. split; [reflexivity|]. split; [eapply dm_get1_ok; eauto|]. intros x. eapply dm_get1_nz; eauto.
    - destruct (dm_get1r m l) as [m'|] eqn:E; simpl; [|discriminate]. intros [= <-].
      exists m'. split; [reflexivity|]. split; [eapply dm_get1r_ok; eauto|]. intros x. eapply dm_get1r_nz; eauto. }
  assert (G2 : forall a b r, getitem2 (RIdx m) a b = Ok r -> exists m', r = @RIdx T m' /\ DmOk m' /\ incl (dm_nz m') (dm_nz m)).
  { intros a0 b0 r0; unfold getitem2. destruct (dsel_sel a0) as [a|], (dsel_sel b0) as [b|]; try discriminate. destruct (dm_get2 m a b) as [m'|] eqn:E; simpl; [|discriminate]. intros [= <-].
    exists m'. split; [reflexivity|]. split; [eapply dm_get2_ok; eauto|]. intros x. eapply dm_get2_nz; eauto. }
  assert (Gs : Ok (RIdx m) = Ok r -> exists m', r = @RIdx T m' /\ DmOk m' /\ incl (dm_nz m') (dm_nz m)).
  { intros [= <-]. exists m. split; [reflexivity|]. split; [exact Hm|apply incl_refl]. }
  destruct ex as [|a ex]; [exact Gs|]. apply Forall_cons_iff in Hex as [Ha Hex].
  assert (K : forall x, performExtraIndex ei flip (RIdx m) (x :: ex) = 
    match x with PFun f => let* r := performExtraIndex ei flip (RIdx m) ex in f r | PNest => Ok (RIdx m)
    | _ => match ex with
           | [] => let* a' := delegation ei 0 x in getitem1 (RIdx m) a'
           | [b] => let* a' := delegation ei 0 x in let* b' := delegation ei 1 b in
                    if flip then getitem2 (RIdx m) b' a' else getitem2 (RIdx m) a' b'
           | _ => Err EException end end).
  { intros x. destruct x; try reflexivity; destruct ex as [|b [|]]; reflexivity. }
  rewrite K.
  assert (G : match ex with
           | [] => let* a' := delegation ei 0 a in getitem1 (RIdx m) a'
           | [b] => let* a' := delegation ei 0 a in let* b' := delegation ei 1 b in
                    if flip then getitem2 (RIdx m) b' a' else getitem2 (RIdx m) a' b'
           | _ => Err EException end = Ok r -> exists m', r = @RIdx T m' /\ DmOk m' /\ incl (dm_nz m') (dm_nz m)).
  { destruct ex as [|b [|]]; [| |discriminate].
    - destruct (delegation ei 0 a); cbn [rbind]; [apply G1|discriminate].
    - destruct (delegation ei 0 a); cbn [rbind]; [|discriminate]. destruct (delegation ei 1 b); cbn [rbind]; [|discriminate].
      destruct flip; apply G2. }
  destruct a; try exact G; [exact Gs|contradiction].
Qed.

(** ** C17 *)
Lemma vec_set_list_same (v : list T) ks : Forall (fun k => k < length v) ks ->
  vec_set_list v ks (map (fun k => nth k v zero) ks) = v.
Proof.
  induction 1 as [|k ks Hk Hks IH]; [reflexivity|]. simpl.
  replace (set_nth k (nth k v zero) v) with v; [exact IH|].
  apply nth_error_ext. intros i. destruct (Nat.eq_dec k i) as [->|Hne].
  - rewrite nth_error_set_nth_same by exact Hk. now apply nth_error_nth'.
  - now rewrite nth_error_set_nth_other.
Qed.

Definition env_ok (en : env) : Prop :=
  en_pmap en = [] /\ en_kind en = KPlain /\ forall ci m, cmap_get ci (en_map en) = Some m -> DmOk m.

Lemma num_env_ok s c : Wf s -> casadi_structure s = Ok c -> env_ok (@num_env T c).
Proof.
  intros Hw Hc. split; [reflexivity|]. split; [reflexivity|]. intros ci m Hm.
  destruct (map_ok s c ci m Hw Hc Hm) as (_ & H & _). exact H.
Qed.

Lemma wb_dispatch en ci ex ei st R : env_ok en -> is_symm ei = false ->
  Forall (fun p => match p with PFun _ => False | _ => True end) (extra ex) ->
  snd (dispatch zero en MGet PayNone ci ex ei st) = Ok R -> dispatch zero en MSet (pay_of R) ci ex ei st = (st, Ok RNone).
Proof.
  intros (Hp & Hk & Hok) Hs Hex. simpl. unfold getter. destruct (cmap_get ci (en_map en)) as [mi|] eqn:Em; [|discriminate].
  rewrite Hp, Hs. replace (match extra ex with [] => cmap_get ci [] | _ => None end) with (@None (dm T)) by (destruct (extra ex); reflexivity).
  unfold mbind at 1. unfold mlift at 1. destruct (performExtraIndex ei false (RIdx mi) (extra ex)) as [r|] eqn:E; [|discriminate].
  destruct (pei_ok _ _ _ _ _ (Hok _ _ Em) Hex E) as (m' & -> & Hm' & _). simpl. unfold mbind, get_master, mlift. simpl.
  unfold correct_vector_indexing. destruct (let* r := vec_get (ps_master st) m' in dm_reshape r (dm_nr m') (dm_nc m')) as [r|] eqn:Ec;
    simpl; [|discriminate]. intros [= <-]. pose proof (cvi_inv _ _ _ Ec) as Hi. rewrite (cvi_ok zero) in Ec by (auto; apply Hm').
  injection Ec as <-. unfold setter, mbind, mlift. simpl. rewrite Em, E, Hs. unfold master_set. rewrite Hk.
  unfold vec_set, vec_assign. cbn [vals dm_map dm_sp]. rewrite (proj2 (spy_eqb_eq _ _) eq_refl).
  apply forallb_inb in Hi. rewrite Hi. cbn [dm_nz]. rewrite vec_set_list_same by (apply forallb_inb in Hi; exact Hi).
  destruct st; reflexivity.
Qed.

Definition wb (rd : @M T rval) (wr : pay -> @M T rval) : Prop :=
  forall st R, snd (rd st) = Ok R -> exists r, wr (pay_of R) st = (st, Ok r).

Lemma wb_wrap rd wr : wb rd wr -> wb (mwrap rd) (fun p => mwrap (wr p)).
Proof.
  intros H st R Hr. rewrite mwrap_snd in Hr. destruct (snd (rd st)) as [x|] eqn:E; [|discriminate]. injection Hr as ->.
  destruct (H st R E) as (r & Hw). exists r. unfold mwrap. now rewrite Hw.
Qed.

(** A loop whose [j]-th step reads/writes the [j]-th part. *)
Lemma wb_loop {A} (rd : A -> @M T rval) (wr : A -> pay -> @M T rval) (l : list A) st rs :
  (forall a, In a l -> pure (rd a)) -> (forall a, In a l -> wb (rd a) (wr a)) ->
  rmapM (fun a => snd (rd a st)) l = Ok rs ->
  Forall2 (fun a r => exists x, wr a (pay_of r) st = (st, Ok x)) l rs.
Proof.
  intros Hp Hw H. apply rmapM_Ok in H. induction H as [|a r l rs Ha HF IH]; constructor.
  - apply (Hw a (or_introl eq_refl)). exact Ha.
  - apply IH; intros; [apply Hp|apply Hw]; now right.
Qed.

Lemma mmapM_noop {A B} (g : A -> @M T B) l st : (forall a, In a l -> exists x, g a st = (st, Ok x)) -> exists xs, mmapM g l st = (st, Ok xs).
Proof.
  induction l as [|a l IH]; intros H; [exists []; reflexivity|]. destruct (H a (or_introl eq_refl)) as (x & Hx).
  destruct IH as (xs & Hxs); [intros; apply H; now right|]. exists (x :: xs). simpl. unfold mbind. now rewrite Hx, Hxs.
Qed.

Lemma unpack_list (l : list pay) i : payloadUnpack (PayList l) (KI (Z.of_nat i)) = match nth_error l i with Some p => Ok p | None => Err EException end.
Proof.
  simpl. destruct (nth_error l i) as [p|] eqn:E.
  - pose proof (nth_error_Some_lt_ _ _ _ E). replace (Z.of_nat (length l) <=? Z.of_nat i)%Z with false by lia.
    unfold py_nth. replace (Z.of_nat i <? 0)%Z with false by lia.
    replace ((0 <=? Z.of_nat i) && (Z.of_nat i <? Z.of_nat (length l)))%Z with true by lia. now rewrite Nat2Z.id, E.
  - apply nth_error_None in E. replace (Z.of_nat (length l) <=? Z.of_nat i)%Z with true by lia. reflexivity.
Qed.

Lemma initial_positions sl n l : initial_slice sl -> slice_range sl n = Ok l -> exists k, l = map Z.of_nat (seq 0 k).
Proof.
  intros [Hs Ht]. unfold slice_range, slice_indices. destruct (n <? 0)%Z eqn:En; [discriminate|].
  assert (E : match sl_step sl with None => 1%Z | Some k => k end = 1%Z) by (destruct Ht as [-> | ->]; reflexivity).
  rewrite E. cbn [Z.eqb rbind]. intros [= <-]. unfold pyrange3.
  set (start := match sl_start sl with None => _ | Some v => _ end). simpl in start.
  eexists (Z.to_nat _). apply map_ext. intros k. assert (start = 0%Z) as ->; [|lia].
  unfold start. destruct Hs as [-> | ->]; [reflexivity|]. unfold slice_adjust. simpl. lia.
Qed.

Lemma initial_no_fun pi : @initial T pi -> Forall (fun p => match p with PFun _ => False | _ => True end) pi.
Proof. apply Forall_impl. intros []; auto. Qed.

Definition wbclos (f : clos) : Prop := forall en pi ci, env_ok en -> initial pi ->
  wb (f en MGet pi ci PayNone) (fun p => f en MSet pi ci p).

Lemma wb_err e wr : wb (merr e) wr.
Proof. intros st R H. discriminate. Qed.

Lemma wb_travD en ei sub : env_ok en -> ei_symm ei = false -> (forall f, sub = Some f -> wbclos f /\ pclos f) ->
  forall dims pi ci, initial pi ->
  wb (travD zero en ei sub dims MGet pi ci PayNone) (fun p => travD zero en ei sub dims MSet pi ci p).
Proof.
  intros Hen Hs Hsub. induction dims as [|d ds IH]; intros pi ci Hpi.
  - cbn [travD]. apply (wb_wrap _ (fun p => match pi with [] => _ | _ => _ end)).
    destruct pi as [|x pi]; [intros st R H; eexists; apply wb_dispatch; auto; constructor|].
    destruct sub as [f|]; [now apply (Hsub f eq_refl)|]. intros st R H. eexists. apply wb_dispatch; auto. now apply initial_no_fun.
  - assert (Hmany : forall n rest, initial rest ->
       wb (rs <- mmapM (fun k => match k with
                     | KS _ => merr EType
                     | KI i => p' <- mlift (payloadUnpack PayNone k) ;;
                               travD zero en ei sub ds MGet rest (ci ++ [KI (canonical i d)]) p'
                     end) (map KI (map Z.of_nat (seq 0 n))) ;; mret (RList rs))
          (fun p => rs <- mmapM (fun k => match k with
                     | KS _ => merr EType
                     | KI i => p' <- mlift (payloadUnpack p k) ;;
                               travD zero en ei sub ds MSet rest (ci ++ [KI (canonical i d)]) p'
                     end) (map KI (map Z.of_nat (seq 0 n))) ;; mret (RList rs))).
    { intros n rest Hr st R H. unfold mbind at 1 in H. rewrite many_pure in H; [|reflexivity|intros f Hf; now apply (Hsub f Hf)].
      destruct (rmapM _ _) as [rs|] eqn:E; [|discriminate]. simpl in H. injection H as <-.
      apply rmapM_Ok in E.
      match goal with |- exists r, (rs <- mmapM ?g ?l ;; mret _) st = _ => destruct (mmapM_noop g l st) as (xs & Hxs) end.
      - intros k Hk. rewrite map_map in Hk. apply in_map_iff in Hk as (j & <- & Hj). apply in_seq in Hj.
        destruct (Forall2_nth _ _ _ E j (Z.of_nat j)) as (r & Hrj & Hread).
        { apply map_nth_error. rewrite (nth_error_nth' _ 0) by (rewrite seq_length; lia). now rewrite seq_nth by lia. }
        cbn [pay_of]. rewrite unpack_list. rewrite (map_nth_error pay_of _ _ Hrj). unfold mbind, mlift.
        exact (IH rest _ Hr st r Hread).
      - exists (RList xs). unfold mbind at 1. rewrite Hxs. reflexivity. }
    assert (Hslc : forall sl rest, initial_slice sl -> initial rest ->
       wb (l <- mlift (slice_range sl d) ;; rs <- mmapM (fun k => match k with
                     | KS _ => merr EType
                     | KI i => p' <- mlift (payloadUnpack PayNone k) ;;
                               travD zero en ei sub ds MGet rest (ci ++ [KI (canonical i d)]) p'
                     end) (map KI l) ;; mret (RList rs))
          (fun p => l <- mlift (slice_range sl d) ;; rs <- mmapM (fun k => match k with
                     | KS _ => merr EType
                     | KI i => p' <- mlift (payloadUnpack p k) ;;
                               travD zero en ei sub ds MSet rest (ci ++ [KI (canonical i d)]) p'
                     end) (map KI l) ;; mret (RList rs))).
    { intros sl rest Hsl Hr. unfold mlift at 1 3. intros st R H. unfold mbind at 1 in H. unfold mbind at 1.
      destruct (slice_range sl d) as [l|] eqn:E; [|discriminate]. destruct (initial_positions _ _ _ Hsl E) as (k & ->).
      exact (Hmany k rest Hr st R H). }
    cbn [travD]. destruct pi as [|x rest].
    + apply (wb_wrap _ (fun p => l <- mlift (slice_range slice_all d) ;; _)). apply Hslc; [split; left; reflexivity|constructor].
    + apply Forall_cons_iff in Hpi as [Hx Hr]. destruct x; try contradiction; try (intros st R H; discriminate).
      * apply (wb_wrap _ (fun p => travD zero en ei sub ds MSet rest (ci ++ [KI (canonical i d)]) p)). now apply IH.
      * apply (wb_wrap _ (fun p => l <- mlift (slice_range s d) ;; _)). now apply Hslc.
      * apply (wb_wrap _ (fun p => rs <- mmapM _ _ ;; mret (RList rs))). apply Hmany. repeat constructor.
Qed.

Lemma Forall2_impl {A B} (P Q : A -> B -> Prop) l l' : (forall a b, P a b -> Q a b) -> Forall2 P l l' -> Forall2 Q l l'.
Proof. intros H. induction 1; constructor; auto. Qed.

Lemma dict_get_of_In {V} k (v : V) d : NoDup (map fst d) -> In (k, v) d -> dict_get k d = Some v.
Proof.
  induction d as [|[k' v'] d IH]; simpl; [tauto|]. intros Hnd [E|Hin].
  - injection E as <- <-. now rewrite String.eqb_refl.
  - apply NoDup_cons_iff in Hnd as [Hn Hnd]. destruct (String.eqb k k') eqn:Ek; [|auto].
    apply String.eqb_eq in Ek. subst. exfalso. apply Hn. apply in_map_iff. exists (k', v). auto.
Qed.

Lemma look_In (d : list (string * clos)) k f : NoDup (map fst d) -> In (k, f) d -> look d k = mret f.
Proof. intros Hnd Hin. unfold look. now rewrite (dict_get_of_In k f d Hnd Hin). Qed.

Lemma wb_travS_body d keys : NoDup (map fst d) -> (forall k f, In (k, f) d -> wbclos f /\ pclos f) ->
  forall en pi ci, env_ok en -> initial pi ->
  wb (travS_body zero d keys en MGet pi ci PayNone) (fun p => travS_body zero d keys en MSet pi ci p).
Proof.
  intros Hnd Hd en pi ci Hen Hpi. destruct pi as [|x rest]; cbn [travS_body].
  - apply (wb_wrap _ (fun p => setter zero en p ci None None)). intros st R H. eexists. apply (wb_dispatch en ci None None); auto; constructor.
  - apply Forall_cons_iff in Hpi as [Hx Hr].
    assert (Hdict : forall rest, initial rest ->
       wb (mdict (mmapM (fun x => r <- snd x en MGet rest (ci ++ [KS (fst x)]) PayNone ;; mret (fst x, r)) d))
          (fun p => match p with
    | PayDict kv =>
        mdict (mmapM (fun x => f <- look d (fst x) ;;
                               r <- f en MSet rest (ci ++ [KS (fst x)]) (snd x) ;; mret (fst x, r)) kv)
    | _ =>
        mdict (mmapM (fun x => r <- snd x en MSet rest (ci ++ [KS (fst x)]) p ;; mret (fst x, r)) d)
    end)).
    { clear rest Hr. intros rest Hr st R H. unfold mdict, mbind at 1 in H. rewrite mmapM_pure in H.
      2:{ intros [k f] Hin. apply pure_bind; [now apply (Hd k f)|intros; apply pure_ret]. }
      match type of H with context [rmapM ?g ?l0] => destruct (rmapM g l0) as [bs|] eqn:E end; [|discriminate]. simpl in H. injection H as <-. apply rmapM_Ok in E.
      assert (Hb : Forall2 (fun x b => fst b = fst x /\ snd (snd x en MGet rest (ci ++ [KS (fst x)]) PayNone st) = Ok (snd b)) d bs).
      { eapply Forall2_impl; [|exact E]. intros [k f] b. cbn [fst snd]. unfold mbind.
        destruct (f en MGet rest (ci ++ [KS k]) PayNone st) as [s1 [r1|]]; [|discriminate]. intros [= <-]. auto. }
      assert (Hk : map fst bs = map fst d).
      { clear -Hb. induction Hb as [|x b d bs [H _] HF IH]; [reflexivity|]. simpl. f_equal; [exact H|exact IH]. }
      rewrite pydict_id by (rewrite Hk; exact Hnd). cbn [pay_of].
      match goal with |- exists r, mdict (mmapM ?g ?l) st = _ => destruct (mmapM_noop g l st) as (xs & Hxs) end.
      - intros kv Hkv. apply in_map_iff in Hkv as (b & <- & Hbin). cbn [fst snd].
        destruct (Forall2_In_r _ _ _ _ Hb Hbin) as ([k f] & Hin & Hfst & Hread). cbn [fst snd] in *. rewrite Hfst.
        rewrite (look_In d k f Hnd Hin). unfold mbind, mret.
        destruct (proj1 (Hd k f Hin) en rest (ci ++ [KS k]) Hen Hr st (snd b) Hread) as (x0 & Hx0). rewrite Hx0. eauto.
      - exists (RDict (pydict xs)). unfold mdict, mbind at 1. rewrite Hxs. reflexivity. }
    destruct x; try contradiction; try (intros st R H; discriminate).
    + apply (wb_wrap _ (fun p => f <- look d s ;; f en MSet rest (ci ++ [KS s]) p)).
      intros st R. unfold look. destruct (dict_get s d) as [f|] eqn:E; [|discriminate]. rewrite !mbind_ret. cbn.
      apply (proj1 (Hd s f (dict_get_In _ _ _ E)) en rest (ci ++ [KS s]) Hen Hr).
    + apply (wb_wrap _ (fun p => rs <- mmapM _ _ ;; mret (RList rs))).
      intros st R H. unfold mbind at 1 in H. rewrite mmapM_pure in H.
      2:{ intros [i k] _. apply pure_look_bind. intros f Hf. apply pure_bind; [apply pure_lift|]. intros. now apply (Hd _ _ Hf). }
      match type of H with context [rmapM ?g ?l0] => destruct (rmapM g l0) as [rs|] eqn:E end; [|discriminate]. simpl in H. injection H as <-. apply rmapM_Ok in E.
      match goal with |- exists r, (rs <- mmapM ?g ?l ;; mret _) st = _ => destruct (mmapM_noop g l st) as (xs & Hxs) end.
      * intros [i k] Hk. apply In_nth_error in Hk as (j & Hj). destruct (Forall2_nth _ _ _ E j _ Hj) as (r & Hrj & Hread).
        assert (i = Z.of_nat j) as ->.
        { clear -Hj. unfold enum in Hj. 
          assert (G : forall (l : list string) n j i k, nth_error (List.combine (map Z.of_nat (seq n (length l))) l) j = Some (i, k) -> i = Z.of_nat (n + j)).
          { induction l as [|a l IH]; intros n [|j0] i0 k0; simpl; try discriminate.
            - intros [= <- <-]. f_equal. lia.
            - intros H. apply IH in H. rewrite H. f_equal. lia. }
          apply G in Hj. exact Hj. }
        cbn [fst snd pay_of] in *. unfold look in *. destruct (dict_get k d) as [f|] eqn:Ek; [|discriminate].
        rewrite mbind_ret. rewrite unpack_list, (map_nth_error pay_of _ _ Hrj). unfold mbind, mlift.
        exact (proj1 (Hd k f (dict_get_In _ _ _ Ek)) en rest (ci ++ [KS k]) Hen Hr st r Hread).
      * exists (RList xs). unfold mbind at 1. rewrite Hxs. reflexivity.
    + apply (wb_wrap _ (fun p => match p with PayDict kv => _ | _ => _ end)). now apply Hdict.
    + apply (wb_wrap _ (fun p => match p with PayDict kv => _ | _ => _ end)).
      intros st R H. unfold mdict, mbind at 1 in H. rewrite mmapM_pure in H.
      2:{ intros k _. apply pure_look_bind. intros f Hf. apply pure_bind; [now apply (Hd _ _ Hf)|intros; apply pure_ret]. }
      match type of H with context [rmapM ?g ?l0] => destruct (rmapM g l0) as [bs|] eqn:E end; [|discriminate]. simpl in H. injection H as <-. apply rmapM_Ok in E.
      assert (Hb : Forall2 (fun k b => fst b = k /\ exists f, dict_get k d = Some f /\ snd (f en MGet rest (ci ++ [KS k]) PayNone st) = Ok (snd b)) l bs).
      { eapply Forall2_impl; [|exact E]. intros k b. unfold look. destruct (dict_get k d) as [f|]; [|discriminate]. rewrite mbind_ret. unfold mbind.
        destruct (f en MGet rest (ci ++ [KS k]) PayNone st) as [s1 [r1|]] eqn:Ef; [|discriminate]. intros [= <-]. split; [reflexivity|]. exists f. rewrite Ef. auto. }
      assert (Hk : map fst bs = l).
      { clear -Hb. induction Hb as [|x b d' bs [H _] HF IH]; [reflexivity|]. simpl. congruence. }
      rewrite pydict_id by (rewrite Hk; exact Hx). cbn [pay_of].
      match goal with |- exists r, mdict (mmapM ?g ?l) st = _ => destruct (mmapM_noop g l st) as (xs & Hxs) end.
      * intros kv Hkv. apply filter_In in Hkv as [Hkv _]. apply in_map_iff in Hkv as (b & <- & Hbin). cbn [fst snd].
        destruct (Forall2_In_r _ _ _ _ Hb Hbin) as (k & Hin & Hfst & f & Hf & Hread). rewrite Hfst.
        unfold look. rewrite Hf. unfold mbind, mret.
        destruct (proj1 (Hd k f (dict_get_In _ _ _ Hf)) en rest (ci ++ [KS k]) Hen Hr st (snd b) Hread) as (x0 & Hx0). rewrite Hx0. eauto.
      * exists (RDict (pydict xs)). unfold mdict, mbind at 1. rewrite Hxs. reflexivity.
    + apply (wb_wrap _ (fun p => match p with PayDict kv => _ | _ => _ end)). apply Hdict. repeat constructor.
Qed.

Lemma wb_travS s : NoSymm s -> wbclos (travS zero s).
Proof.
  induction s as [es order IH] using structure_ind2. intros Hns en pi ci Hen Hpi st R. rewrite !travS_eq.
  revert st R. apply (wb_travS_body (sdictT zero (mkStruct es order)) (s_keys (mkStruct es order))); [apply NoDup_pydict| |exact Hen|exact Hpi].
  intros k f Hin. unfold sdictT in Hin. apply in_pydict in Hin. simpl in Hin. apply in_map_iff in Hin as (e & [= <- <-] & He).
  inversion Hns as [es' order' H1 H2]; subst.
  assert (Hsub : forall f, subT zero e = Some f -> wbclos f /\ pclos f).
  { unfold subT. intros f. destruct (e_struct e) as [s'|] eqn:Es; [|discriminate]. intros [= <-]. split; [eapply IH; eauto|apply pure_travS]. }
  split.
  - intros en' pi' ci' Hen' Hpi' st R. rewrite !travE_eq. revert st R.
    refine (wb_travD en' (info zero e) (subT zero e) Hen' _ Hsub (e_dims e) pi' ci' Hpi'). now apply H1.
  - intros en' md' pi' ci' p' Hm'. rewrite travE_eq. apply pure_travD; [|exact Hm']. intros f Hf. now apply Hsub.
Qed.

Theorem write_back s c (st : pstate) pi R :
  Obj s c st -> NoSymm s -> initial pi ->
  getitem zero s (num_env c) pi st = Ok R ->
  exists r, setitem zero s (num_env c) pi (pay_of R) st = (st, Ok r).
Proof.
  intros Ho Hns Hpi H. apply (wb_travS s Hns (num_env c) pi [] (num_env_ok s c (ob_wf _ _ _ Ho) (ob_built _ _ _ Ho)) Hpi st R H).
Qed.
End P.
