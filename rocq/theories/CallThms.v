(** Callables in indices (C102). *)
From Verif Require Import PyBase IndexModel DMModel StructModel StructSpec PowerModel PowerSpec
  IndexProofs StructProofs LayoutProofs LayoutThms LayoutExamples DMProofs PowerProofs PowerThms SliceProofs PowerThms2 PowerThms3 PowerThms4 SimThms ReadSpec ReadThms AssignSpec AssignThms CallSpec.
Open Scope list_scope. Open Scope nat_scope.

Section P.
Context {T : Type} (zero : T).
Notation rval := (rval T).
Notation pel := (pel T).
Notation pay := (pay T).
Notation env := (env T).
Notation einfo := (einfo T).
Notation pstate := (pstate T).
Notation clos := (@clos T).

(** ** Reading *)
Lemma raised_wrapE {A} (r : res A) : raised r = wrapE r.
Proof. reflexivity. Qed.
Lemma wrapE_idem {A} (r : res A) : wrapE (wrapE r) = wrapE r.
Proof. destruct r; reflexivity. Qed.
Lemma wrapE_bind {A B} (r : res A) (k : A -> res B) : wrapE (rbind (wrapE r) k) = wrapE (rbind r k).
Proof. destruct r; reflexivity. Qed.
Lemma wrapE_bind_ext {A B} (r : res A) (k k' : A -> res B) : (forall a, r = Ok a -> wrapE (k a) = wrapE (k' a)) -> wrapE (rbind r k) = wrapE (rbind r k').
Proof. destruct r; simpl; auto. Qed.

Definition callclos (f : clos) (pre : list pel) : Prop := forall en md g post ci st, pure_mode md = true ->
  snd (f en md (pre ++ PFun g :: post) ci PayNone st) = wrapE (let* r := snd (f en md (pre ++ post) ci PayNone st) in apply_at pre g r).

Lemma rmapM_call {A B C} (F : A -> res C) (G : A -> res B) (h : B -> res C) l :
  (forall a, In a l -> wrapE (F a) = wrapE (let* r := G a in h r)) ->
  wrapE (rmapM F l) = wrapE (let* rs := rmapM G l in rmapM h rs).
Proof.
  induction l as [|a l IH]; intros H; [reflexivity|]. simpl.
  pose proof (H a (or_introl eq_refl)) as Ha. specialize (IH (fun b Hb => H b (or_intror Hb))).
  destruct (F a) as [c|e1], (G a) as [b|e2]; simpl in *; try discriminate.
  - destruct (h b) as [c'|] eqn:E; [|discriminate]. injection Ha as <-.
    destruct (rmapM F l) as [cs|], (rmapM G l) as [bs|]; simpl in *; rewrite ?E; simpl; try discriminate; try reflexivity;
      destruct (rmapM h bs); simpl in *; try discriminate; try reflexivity; congruence.
  - destruct (h b) as [c'|] eqn:E; [discriminate|]. destruct (rmapM G l); simpl; rewrite ?E; reflexivity.
  - reflexivity.
Qed.

Lemma many_call {A} (F G : A -> @M T rval) (h : rval -> res rval) l st :
  (forall a, In a l -> pure (F a)) -> (forall a, In a l -> pure (G a)) ->
  (forall a, In a l -> wrapE (snd (F a st)) = wrapE (let* r := snd (G a st) in h r)) ->
  wrapE (snd ((rs <- mmapM F l ;; mret (RList rs)) st)) =
  wrapE (let* r := snd ((rs <- mmapM G l ;; mret (RList rs)) st) in match r with RList l => rmap RList (rmapM h l) | _ => Err EException end).
Proof.
  intros HF HG H. unfold mbind. rewrite (mmapM_pure F l st HF), (mmapM_pure G l st HG).
  pose proof (rmapM_call (fun a => snd (F a st)) (fun a => snd (G a st)) h l H) as E.
  destruct (rmapM (fun a => snd (F a st)) l) as [x|], (rmapM (fun a => snd (G a st)) l) as [y|]; simpl in *; try discriminate; try reflexivity;
    destruct (rmapM h y); simpl in *; congruence.
Qed.

Lemma dict_call {A} (F G : A -> @M T rval) (key : A -> string) (h : rval -> res rval) l st :
  NoDup (map key l) -> (forall a, In a l -> pure (F a)) -> (forall a, In a l -> pure (G a)) ->
  (forall a, In a l -> wrapE (snd (F a st)) = wrapE (let* r := snd (G a st) in h r)) ->
  wrapE (snd (mdict (mmapM (fun a => r <- F a ;; mret (key a, r)) l) st)) =
  wrapE (let* r := snd (mdict (mmapM (fun a => r <- G a ;; mret (key a, r)) l) st) in
         match r with RDict l => rmap RDict (rmapM (fun kv => let* x := h (snd kv) in Ok (fst kv, x)) l) | _ => Err EException end).
Proof.
  intros Hn HF HG H.
  assert (P : forall F' : A -> @M T rval, (forall a, In a l -> pure (F' a)) -> forall a, In a l -> pure (r <- F' a ;; mret (key a, r))) by (intros F' HF' a Ha; apply pure_bind; [now apply HF'|intros; apply pure_ret]).
  unfold mdict, mbind at 1. unfold mbind at 2. rewrite (mmapM_pure _ l st (P F HF)), (mmapM_pure _ l st (P G HG)).
  assert (K : forall F' : A -> @M T rval, forall xs, rmapM (fun a => snd ((r <- F' a ;; mret (key a, r)) st)) l = Ok xs -> pydict xs = xs).
  { intros F' xs E. apply pydict_id. replace (map fst xs) with (map key l); [exact Hn|]. clear -E. revert xs E. induction l as [|a l IH]; intros xs E; simpl in E; [now injection E as <-|].
    unfold mbind at 1 in E. destruct (F' a st) as [s1 [x|]]; [|discriminate]. simpl in E. destruct (rmapM _ l) as [ys|] eqn:E'; [|discriminate]. injection E as <-. simpl. f_equal. now apply IH. }
  pose proof (rmapM_call (fun a => snd ((r <- F a ;; mret (key a, r)) st)) (fun a => snd ((r <- G a ;; mret (key a, r)) st)) (fun kv => let* x := h (snd kv) in Ok (fst kv, x)) l) as E.
  specialize (K F) as KF. specialize (K G) as KG. clear K.
  match type of E with ?A -> _ => assert (HA : A) end.
  { intros a Ha. specialize (H a Ha). unfold mbind. destruct (F a st) as [s1 [x|]], (G a st) as [s2 [y|]]; simpl in *; try discriminate; try reflexivity;
      destruct (h y); simpl in *; try discriminate; try reflexivity; congruence. }
  specialize (E HA). clear HA.
  destruct (rmapM (fun a => snd ((r <- F a ;; mret (key a, r)) st)) l) as [x|], (rmapM (fun a => snd ((r <- G a ;; mret (key a, r)) st)) l) as [y|]; simpl in *; try discriminate; try reflexivity.
  - rewrite (KF x eq_refl), (KG y eq_refl). destruct (rmapM _ y); simpl in *; congruence.
  - rewrite (KG y eq_refl). destruct (rmapM _ y); simpl in *; congruence.
Qed.

Lemma dispatch_entry en md ci ei st : pure_mode md = true -> is_symm ei = false ->
  dispatch zero en md PayNone ci None ei st = dispatch zero en md PayNone ci None None st.
Proof. intros Hm Hs. destruct md; try discriminate; cbn [dispatch]; unfold getter, flatget, imget; simpl; rewrite ?Hs; reflexivity. Qed.

Scheme Above_mut := Induction for Above Sort Prop with AboveE_mut := Induction for AboveE Sort Prop.

Lemma travD_fun en ei sub d ds md g post ci p st : travD zero en ei sub (d :: ds) md (PFun g :: post) ci p st =
  mwrap (md' <- mlift (inner md) ;; r <- travD zero en ei sub (d :: ds) md' post ci p ;; r' <- mlift (g r) ;; outer zero en md p r') st.
Proof. reflexivity. Qed.

Lemma fun_call en md (m : mode -> @M T rval) (g : rval -> res rval) p st : pure_mode md = true ->
  snd (mwrap (md' <- mlift (inner md) ;; r <- m md' ;; r' <- mlift (g r) ;; outer zero en md p r') st) = wrapE (let* r := snd (m md st) in g r).
Proof.
  intros Hm. rewrite mwrap_snd. rewrite (inner_pure md Hm). unfold mbind at 1, mlift at 1. unfold mbind. destruct (m md st) as [s1 [r|e]]; [|reflexivity].
  simpl. destruct (g r) as [r'|e]; [|reflexivity]. cbn. rewrite outer_pure by exact Hm. reflexivity.
Qed.

Definition callD (e : entry) (dims : list Z) (pre : list pel) : Prop := forall en md g post ci st, pure_mode md = true ->
  snd (travD zero en (info zero e) (subT zero e) dims md (pre ++ PFun g :: post) ci PayNone st) =
  wrapE (let* r := snd (travD zero en (info zero e) (subT zero e) dims md (pre ++ post) ci PayNone st) in apply_at pre g r).

Lemma callD_wrap e dims pre en md g post ci st : callD e dims pre -> pure_mode md = true ->
  wrapE (snd (travD zero en (info zero e) (subT zero e) dims md (pre ++ PFun g :: post) ci PayNone st)) =
  wrapE (let* r := snd (travD zero en (info zero e) (subT zero e) dims md (pre ++ post) ci PayNone st) in apply_at pre g r).
Proof. intros H Hm. rewrite (H en md g post ci st Hm). apply wrapE_idem. Qed.

Lemma pure_sub e f : subT zero e = Some f -> pclos f.
Proof. unfold subT. destruct (e_struct e); [|discriminate]. intros [= <-]. apply pure_travS. Qed.

Lemma in_sdict s k f : In (k, f) (sdictT zero s) -> exists e, In e (s_entries s) /\ e_name e = k /\ f = travE zero e.
Proof. unfold sdictT. intros H. apply in_pydict in H. apply in_map_iff in H as (e & [= <- <-] & He). eauto. Qed.

Lemma pure_travE e : pclos (travE zero e).
Proof. intros en md pi ci p Hm. rewrite travE_eq. apply pure_travD; [|exact Hm]. intros f Hf. now apply (pure_sub e). Qed.

Lemma look_call (d : list (string * clos)) k en md pre g post ci st :
  (forall f, In (k, f) d -> wrapE (snd (f en md (pre ++ PFun g :: post) ci PayNone st)) = wrapE (let* r := snd (f en md (pre ++ post) ci PayNone st) in apply_at pre g r)) ->
  wrapE (snd ((f <- look d k ;; f en md (pre ++ PFun g :: post) ci PayNone) st)) =
  wrapE (let* r := snd ((f <- look d k ;; f en md (pre ++ post) ci PayNone) st) in @apply_at T pre g r).
Proof.
  intros H. unfold look. destruct (dict_get k d) as [f|] eqn:E; [|reflexivity]. exact (H f (dict_get_In _ _ _ E)).
Qed.

Lemma above_call : forall s pre, Above s pre -> callclos (travS zero s) pre.
Proof.
  apply (Above_mut T (fun s pre _ => callclos (travS zero s) pre) (fun e dims pre _ => callD e dims pre)).
  - intros s en md g post ci st Hm. rewrite !travS_eq. cbn [app travS_body].
    exact (fun_call en md (fun md' => travS_body zero (sdictT zero s) (s_keys s) en md' post ci PayNone) g PayNone st Hm).
  - intros s n pre _ IH en md g post ci st Hm. rewrite !travS_eq. cbn [app travS_body apply_at]. rewrite !mwrap_snd, wrapE_bind.
    apply look_call. intros f Hf. apply in_sdict in Hf as (e & He & Hn & ->). rewrite !travE_eq. apply callD_wrap; auto.
  - intros s pre _ IH en md g post ci st Hm. rewrite !travS_eq. cbn [app travS_body apply_at]. rewrite !mwrap_snd, wrapE_bind.
    apply many_call.
    + intros [i k] _. apply pure_look_bind. intros f Hf. apply in_sdict in Hf as (e & _ & _ & ->). apply pure_bind; [apply pure_lift|]. intros. now apply pure_travE.
    + intros [i k] _. apply pure_look_bind. intros f Hf. apply in_sdict in Hf as (e & _ & _ & ->). apply pure_bind; [apply pure_lift|]. intros. now apply pure_travE.
    + intros [i k] _. cbn [fst snd]. apply look_call. intros f Hf. apply in_sdict in Hf as (e & He & Hn & ->). rewrite !travE_eq. apply callD_wrap; auto.
  - intros s pre _ IH en md g post ci st Hm. rewrite !travS_eq. cbn [app travS_body apply_at]. rewrite !mwrap_snd, wrapE_bind.
    apply (dict_call (fun x => snd x en md (pre ++ PFun g :: post) (ci ++ [KS (fst x)]) PayNone) (fun x => snd x en md (pre ++ post) (ci ++ [KS (fst x)]) PayNone) fst).
    + apply NoDup_pydict.
    + intros [k f] Hf. apply in_sdict in Hf as (e & _ & _ & ->). now apply pure_travE.
    + intros [k f] Hf. apply in_sdict in Hf as (e & _ & _ & ->). now apply pure_travE.
    + intros [k f] Hf. apply in_sdict in Hf as (e & He & Hn & ->). cbn [fst snd]. rewrite !travE_eq. apply callD_wrap; auto.
  - intros s names pre Hn _ IH en md g post ci st Hm. rewrite !travS_eq. cbn [app travS_body apply_at]. rewrite !mwrap_snd, wrapE_bind.
    assert (E : forall pi, mdict (mmapM (fun k => f <- look (sdictT zero s) k ;; r <- f en md pi (ci ++ [KS k]) PayNone ;; mret (k, r)) names) st =
         mdict (mmapM (fun k => r <- (f <- look (sdictT zero s) k ;; f en md pi (ci ++ [KS k]) PayNone) ;; mret (k, r)) names) st).
    { intros pi. unfold mdict. apply mbind_eq; [|reflexivity]. apply mmapM_eq. intros k s0 _. unfold look. destruct (dict_get k _); reflexivity. }
    rewrite !E.
    apply (dict_call (fun k => f <- look (sdictT zero s) k ;; f en md (pre ++ PFun g :: post) (ci ++ [KS k]) PayNone) (fun k => f <- look (sdictT zero s) k ;; f en md (pre ++ post) (ci ++ [KS k]) PayNone) (fun k => k)).
    + now rewrite map_id.
    + intros k _. apply pure_look_bind. intros f Hf. apply in_sdict in Hf as (e & _ & _ & ->). now apply pure_travE.
    + intros k _. apply pure_look_bind. intros f Hf. apply in_sdict in Hf as (e & _ & _ & ->). now apply pure_travE.
    + intros k Hk. apply look_call. intros f Hf. apply in_sdict in Hf as (e & He & He' & ->). rewrite !travE_eq. apply callD_wrap; [|exact Hm]. apply IH; congruence.
  - intros s l pre _ IH en md g post ci st Hm. rewrite !travS_eq. cbn [app travS_body apply_at]. rewrite !mwrap_snd, wrapE_bind.
    apply many_call.
    + intros [i k] _. apply pure_bind; [apply pure_lift|]. intros. rewrite <- travS_eq. now apply pure_travS.
    + intros [i k] _. apply pure_bind; [apply pure_lift|]. intros. rewrite <- travS_eq. now apply pure_travS.
    + intros [i k] _. cbn [fst snd]. unfold mbind, mlift. cbn [payloadUnpack snd]. rewrite <- !travS_eq, (IH en md g post (ci ++ [k]) st Hm). apply wrapE_idem.
  - intros e d ds en md g post ci st Hm. cbn [app apply_at]. rewrite travD_fun.
    exact (fun_call en md (fun md' => travD zero en (info zero e) (subT zero e) (d :: ds) md' post ci PayNone) g PayNone st Hm).
  - intros e d ds i pre _ IH en md g post ci st Hm. cbn [app travD apply_at]. rewrite !mwrap_snd, wrapE_bind. now apply callD_wrap.
  - intros e d ds sl pre _ IH en md g post ci st Hm. cbn [app travD apply_at]. rewrite !mwrap_snd, wrapE_bind.
    destruct (slice_range sl d) as [l|]; [|reflexivity]. unfold mbind at 1, mlift at 1. unfold mbind at 3, mlift at 3. cbn [snd].
    apply many_call.
    + intros [k|i] _; [apply pure_err|]. apply pure_bind; [apply pure_lift|]. intros. apply pure_travD; [|exact Hm]. intros; now apply (pure_sub e).
    + intros [k|i] _; [apply pure_err|]. apply pure_bind; [apply pure_lift|]. intros. apply pure_travD; [|exact Hm]. intros; now apply (pure_sub e).
    + intros [k|i] _; [reflexivity|]. unfold mbind, mlift. cbn [payloadUnpack snd]. now apply callD_wrap.
  - intros e d ds l pre _ IH en md g post ci st Hm. cbn [app travD apply_at]. rewrite !mwrap_snd, wrapE_bind.
    apply many_call.
    + intros [k|i] _; [apply pure_err|]. apply pure_bind; [apply pure_lift|]. intros. apply pure_travD; [|exact Hm]. intros; now apply (pure_sub e).
    + intros [k|i] _; [apply pure_err|]. apply pure_bind; [apply pure_lift|]. intros. apply pure_travD; [|exact Hm]. intros; now apply (pure_sub e).
    + intros [k|i] _; [reflexivity|]. unfold mbind, mlift. cbn [payloadUnpack snd]. now apply callD_wrap.
  - intros e s' pre Es Hs _ IH en md g post ci st Hm. unfold subT. rewrite Es. cbn [travD]. destruct (pre ++ PFun g :: post) as [|x xs] eqn:E1; [now destruct pre|]. rewrite <- E1.
    rewrite mwrap_snd, (IH en md g post ci st Hm), wrapE_idem, mwrap_snd, wrapE_bind. destruct (pre ++ post) as [|y ys] eqn:E2; [|reflexivity].
    destruct pre; [|discriminate]. cbn [apply_at]. rewrite travS_eq. cbn [travS_body]. rewrite mwrap_snd, wrapE_bind.
    rewrite (dispatch_entry en md ci (Some (info zero e)) st Hm); [reflexivity|exact Hs].
Qed.

Theorem getitem_call s (en : env) pre f post (st : pstate) : Above s pre ->
  getitem zero s en (pre ++ PFun f :: post) st = raised (let* r := getitem zero s en (pre ++ post) st in apply_at pre f r).
Proof. intros H. exact (above_call s pre H en MGet f post [] st eq_refl). Qed.

Theorem i_get_call s c pre f post : casadi_structure s = Ok c -> Above s pre ->
  i_get zero s (pre ++ PFun f :: post) = raised (let* r := i_get zero s (pre ++ post) in apply_at pre f r).
Proof.
  intros Hc H. unfold i_get, index_getter. rewrite Hc. cbn [rbind]. rewrite (above_call s pre H _ MIM f post [] empty_state eq_refl).
  destruct (snd (travS _ _ _ _ (pre ++ post) _ _ _)) as [r|]; simpl; [|reflexivity]. destruct (apply_at pre f r); reflexivity.
Qed.

(** ** The index getter does not look at the state, and at the right-hand side only to refuse it *)
Inductive flatp : pay -> Prop :=
| Fp_none : flatp PayNone
| Fp_num : forall x, flatp (PayNum x)
| Fp_mat : forall m, flatp (PayMat m)
| Fp_list : forall l, Forall flatp l -> flatp (PayList l).

Lemma to_mtype_flat p m : to_mtype p = Ok m -> flatp p.
Proof.
  destruct p as [|x|d|l|kv|q]; simpl; intros H; try discriminate; try constructor.
  assert (Hn : forall l xs, @pay_nums T l = Some xs -> Forall flatp l).
  { clear. induction l as [|[|x| | | |] l IH]; intros xs H; try discriminate; constructor; [constructor|]. simpl in H. destruct (pay_nums l); [eauto|discriminate]. }
  destruct (pay_nums l) as [xs|] eqn:E; [eapply Hn; eauto|]. destruct (pay_rows l) as [rows|] eqn:E'; [|discriminate]. clear H E.
  revert rows E'. induction l as [|[| | |r| |] l IH]; intros rows E'; try discriminate; constructor.
  - simpl in E'. destruct (pay_nums r) eqn:E; [|discriminate]. constructor. eapply Hn; eauto.
  - simpl in E'. destruct (pay_nums r); [|discriminate]. destruct (pay_rows l); [|discriminate]. eapply IH; eauto.
Qed.

Lemma unpack_flat p i q : flatp p -> payloadUnpack p (KI i) = Ok q -> flatp q.
Proof.
  intros H. destruct p as [| | |l| |]; simpl; try (intros [= <-]; exact H); [|inversion H].
  inversion H; subst. destruct (_ <=? i)%Z; [discriminate|]. unfold py_nth. intros E. rewrite Forall_forall in H1. apply H1.
  repeat match type of E with context [match ?x with _ => _ end] => destruct x eqn:? end; try discriminate; injection E as <-; eapply nth_error_In; eauto.
Qed.

Definition imle (b : bool) (m m' : @M T rval) : Prop := forall st st', match snd (m st) with Ok r => snd (m' st') = Ok r | Err _ => b = true -> exists e, snd (m' st') = Err e end.
Definition simple (p : pay) : Prop := match p with PayNum _ | PayMat _ | PayNone => True | _ => False end.
Definition adm (b : bool) (p : pay) : Prop := if b then simple p else flatp p.
Definition imclos (f : clos) : Prop := forall b en pi ci p, adm b p -> imle b (f en MIM pi ci p) (f en MIM pi ci PayNone).

Lemma imle_wrap b m m' : imle b m m' -> imle b (mwrap m) (mwrap m').
Proof.
  intros H st st'. specialize (H st st'). rewrite !mwrap_snd. destruct (snd (m st)) as [r|e]; simpl; [now rewrite H|].
  intros Hb. destruct (H Hb) as (e' & ->). simpl. eauto.
Qed.
Lemma imle_err b e e' : imle b (merr e) (merr e').
Proof. intros st st'. simpl. eauto. Qed.
Lemma imle_ext b m m1 m' m1' : (forall st, m st = m1 st) -> (forall st, m' st = m1' st) -> imle b m1 m1' -> imle b m m'.
Proof. intros E E' H st st'. rewrite E, E'. apply H. Qed.
Lemma imle_bind b m m' (k k' : rval -> @M T rval) : imle b m m' -> (forall r, imle b (k r) (k' r)) -> imle b (mbind m k) (mbind m' k').
Proof.
  intros H K st st'. specialize (H st st'). unfold mbind. destruct (m st) as [s1 [r|e]]; simpl in H.
  - destruct (m' st') as [s2 r']; simpl in H. subst r'. apply K.
  - simpl. intros Hb. destruct (H Hb) as (e' & He'). destruct (m' st') as [s2 r']; simpl in He'. subst r'. simpl. eauto.
Qed.
Lemma imle_lift {A} b (x : res A) (k k' : A -> @M T rval) : (forall a, x = Ok a -> imle b (k a) (k' a)) -> imle b (mbind (mlift x) k) (mbind (mlift x) k').
Proof. intros H. destruct x as [a|e]; [exact (H a eq_refl)|]. intros st st'. simpl. eauto. Qed.
Lemma imle_unpack b p i (k : pay -> @M T rval) (m' : @M T rval) : adm b p -> (forall q, adm b q -> imle b (k q) m') -> imle b (mbind (mlift (payloadUnpack p (KI i))) k) m'.
Proof.
  intros Hp H. destruct (payloadUnpack p (KI i)) as [q|e] eqn:E.
  - apply H. destruct b; [|eapply unpack_flat; eauto]. destruct p; try contradiction; injection E as <-; exact Hp.
  - intros st st'. simpl. intros ->. destruct p; try contradiction; discriminate.
Qed.
Lemma imle_map {A B C} b (F G : A -> @M T B) (kf : list B -> C) (kr : C -> rval) l :
  (forall a, In a l -> forall st st', match snd (F a st) with Ok r => snd (G a st') = Ok r | Err _ => b = true -> exists e, snd (G a st') = Err e end) ->
  (forall a, In a l -> pure (F a)) -> (forall a, In a l -> pure (G a)) ->
  imle b (rs <- mmapM F l ;; mret (kr (kf rs))) (rs <- mmapM G l ;; mret (kr (kf rs))).
Proof.
  intros H PF PG st st'. unfold mbind. rewrite (mmapM_pure F l st PF), (mmapM_pure G l st' PG).
  assert (K : match rmapM (fun a => snd (F a st)) l with Ok r => rmapM (fun a => snd (G a st')) l = Ok r | Err _ => b = true -> exists e, rmapM (fun a => snd (G a st')) l = Err e end).
  { clear PF PG. induction l as [|a l IH]; [reflexivity|]. simpl. pose proof (H a (or_introl eq_refl) st st') as Ha. specialize (IH (fun x Hx => H x (or_intror Hx))).
    destruct (snd (F a st)) as [x|e]; simpl.
    - rewrite Ha. simpl. destruct (rmapM (fun a => snd (F a st)) l); simpl; [now rewrite IH|]. intros Hb. destruct (IH Hb) as (e' & ->). simpl. eauto.
    - intros Hb. destruct (Ha Hb) as (e' & ->). simpl. eauto. }
  destruct (rmapM (fun a => snd (F a st)) l) as [x|e]; simpl; [now rewrite K|]. intros Hb. destruct (K Hb) as (e' & ->). simpl. eauto.
Qed.

Lemma im_travD b en ei sub : (forall f, sub = Some f -> imclos f /\ pclos f) -> forall dims pi ci p, adm b p ->
  imle b (travD zero en ei sub dims MIM pi ci p) (travD zero en ei sub dims MIM pi ci PayNone).
Proof.
  intros Hsub. induction dims as [|d ds IH]; intros pi ci p Hp.
  - cbn [travD]. apply imle_wrap. destruct pi as [|x pi]; [intros st st'; simpl; destruct (imget _ _ _ _); simpl; eauto|].
    destruct sub as [f|]; [now apply (Hsub f eq_refl)|]. intros st st'; cbn [dispatch]. unfold mlift; simpl. destruct (imget _ _ _ _); simpl; eauto.
  - assert (Hmany : forall l rest,
       imle b (rs <- mmapM (fun k => match k with
                     | KS _ => merr EType
                     | KI i => p' <- mlift (payloadUnpack p k) ;;
                               travD zero en ei sub ds MIM rest (ci ++ [KI (canonical i d)]) p'
                     end) l ;; mret (RList rs))
              (rs <- mmapM (fun k => match k with
                     | KS _ => merr EType
                     | KI i => p' <- mlift (payloadUnpack PayNone k) ;;
                               travD zero en ei sub ds MIM rest (ci ++ [KI (canonical i d)]) p'
                     end) l ;; mret (RList rs))).
    { intros l rest. apply (imle_map b _ _ (fun rs => rs) RList).
      - intros [k|i] _; [apply (imle_err b)|]. apply (imle_unpack b p i _ _ Hp). intros q Hq. exact (IH rest (ci ++ [KI (canonical i d)]) q Hq).
      - intros [k|i] _; [apply pure_err|]. apply pure_bind; [apply pure_lift|]. intros. apply pure_travD; [intros f Hf; now apply Hsub|reflexivity].
      - intros [k|i] _; [apply pure_err|]. apply pure_bind; [apply pure_lift|]. intros. apply pure_travD; [intros f Hf; now apply Hsub|reflexivity]. }
    induction pi as [|x rest IHp]; [|destruct x]; try (apply imle_wrap; apply imle_err).
    + cbn [travD]. apply imle_wrap, imle_lift. intros l _. apply Hmany.
    + cbn [travD]. apply imle_wrap. now apply IH.
    + cbn [travD]. apply imle_wrap, imle_lift. intros l _. apply Hmany.
    + cbn [travD]. apply imle_wrap. apply Hmany.
    + cbn [travD]. apply imle_wrap. apply Hmany.
    + eapply imle_ext; [intros; apply travD_fun|intros; apply travD_fun|]. apply imle_wrap. cbn [inner]. apply imle_lift. intros md' [= <-].
      apply imle_bind; [exact IHp|]. intros r. apply imle_lift. intros r' _. cbn [outer]. intros st st'. reflexivity.
Qed.

Lemma imle_look b (d : list (string * clos)) k (g g' : clos -> @M T rval) : (forall f, In (k, f) d -> imle b (g f) (g' f)) -> imle b (f <- look d k ;; g f) (f <- look d k ;; g' f).
Proof. intros H. unfold look. destruct (dict_get k d) as [f|] eqn:E; [exact (H f (dict_get_In _ _ _ E))|]. intros st st'. simpl. eauto. Qed.

Lemma keyed_le b (m m' : @M T rval) (k : string) : imle b m m' -> forall st st',
  match snd ((r <- m ;; mret (k, r)) st) with Ok r => snd ((r <- m' ;; mret (k, r)) st') = Ok r | Err _ => b = true -> exists e, snd ((r <- m' ;; mret (k, r)) st') = Err e end.
Proof.
  intros H st st'. specialize (H st st'). unfold mbind. destruct (m st) as [s1 [r|e]], (m' st') as [s2 r']; simpl in *; [now subst r'|].
  intros Hb. destruct (H Hb) as (e' & ->). simpl. eauto.
Qed.

Lemma im_body b d keys : (forall k f, In (k, f) d -> imclos f /\ pclos f) -> forall en pi ci p, adm b p ->
  imle b (travS_body zero d keys en MIM pi ci p) (travS_body zero d keys en MIM pi ci PayNone).
Proof.
  intros Hd en pi. induction pi as [|x rest IHp]; intros ci p Hp; cbn [travS_body]; apply imle_wrap.
  - intros st st'. cbn [dispatch]. unfold mlift; simpl. destruct (imget _ _ _ _); simpl; eauto.
  - assert (Hdict : forall rest, imle b
        (match p with
         | PayDict kv =>
            mdict (mmapM (fun x => f <- look d (fst x) ;;
                               r <- f en MIM rest (ci ++ [KS (fst x)]) (snd x) ;; mret (fst x, r)) kv)
         | _ => mdict (mmapM (fun x => r <- snd x en MIM rest (ci ++ [KS (fst x)]) p ;; mret (fst x, r)) d)
         end)
        (mdict (mmapM (fun x => r <- snd x en MIM rest (ci ++ [KS (fst x)]) PayNone ;; mret (fst x, r)) d))).
    { clear rest IHp. intros rest.
      assert (G : imle b (mdict (mmapM (fun x => r <- snd x en MIM rest (ci ++ [KS (fst x)]) p ;; mret (fst x, r)) d))
                         (mdict (mmapM (fun x => r <- snd x en MIM rest (ci ++ [KS (fst x)]) PayNone ;; mret (fst x, r)) d))).
      { apply (imle_map b _ _ pydict RDict).
        - intros [k f] Hf. cbn [fst snd]. apply keyed_le. now apply (Hd k f).
        - intros [k f] Hf. apply pure_bind; [now apply (Hd k f)|intros; apply pure_ret].
        - intros [k f] Hf. apply pure_bind; [now apply (Hd k f)|intros; apply pure_ret]. }
      destruct p; try exact G. exfalso. destruct b; [destruct Hp|inversion Hp]. }
    destruct x; try apply imle_err; try apply Hdict.
    + apply imle_look. intros f Hf. now apply (Hd _ _ Hf).
    + apply (imle_map b _ _ (fun rs => rs) RList).
      * intros [i k] _. cbn [fst snd]. apply (imle_unpack b p i _ _ Hp). intros q Hq. exact (IHp (ci ++ [k]) q Hq).
      * intros [i k] _. apply pure_bind; [apply pure_lift|]. intros. apply pure_travS_body; [|reflexivity]. intros k' f Hf. now apply (Hd k' f).
      * intros [i k] _. apply pure_bind; [apply pure_lift|]. intros. apply pure_travS_body; [|reflexivity]. intros k' f Hf. now apply (Hd k' f).
    + apply (imle_map b _ _ (fun rs => rs) RList).
      * intros [i k] _. cbn [fst snd]. apply imle_look. intros f Hf. apply (imle_unpack b p i _ _ Hp). intros q Hq. exact (proj1 (Hd _ _ Hf) b en rest (ci ++ [KS k]) q Hq).
      * intros [i k] _. apply pure_look_bind. intros f Hf. apply pure_bind; [apply pure_lift|]. intros. now apply (Hd _ _ Hf).
      * intros [i k] _. apply pure_look_bind. intros f Hf. apply pure_bind; [apply pure_lift|]. intros. now apply (Hd _ _ Hf).
    + assert (G : imle b (mdict (mmapM (fun k => f <- look d k ;; r <- f en MIM rest (ci ++ [KS k]) p ;; mret (k, r)) l))
                         (mdict (mmapM (fun k => f <- look d k ;; r <- f en MIM rest (ci ++ [KS k]) PayNone ;; mret (k, r)) l))).
      { apply (imle_map b _ _ pydict RDict).
        - intros k _. unfold look. destruct (dict_get k d) as [f|] eqn:E; [|intros; simpl; eauto]. apply (keyed_le b (f en MIM rest (ci ++ [KS k]) p) (f en MIM rest (ci ++ [KS k]) PayNone) k). now apply (Hd _ _ (dict_get_In _ _ _ E)).
        - intros k _. apply pure_look_bind. intros f Hf. apply pure_bind; [now apply (Hd _ _ Hf)|intros; apply pure_ret].
        - intros k _. apply pure_look_bind. intros f Hf. apply pure_bind; [now apply (Hd _ _ Hf)|intros; apply pure_ret]. }
      destruct p; try exact G. exfalso. destruct b; [destruct Hp|inversion Hp].
    + cbn [inner]. apply imle_lift. intros md' [= <-]. apply imle_bind; [exact (IHp ci p Hp)|]. intros r. apply imle_lift. intros r' _. cbn [outer]. intros st st'. reflexivity.
Qed.

Lemma im_travS s : imclos (travS zero s).
Proof.
  induction s as [es order IH] using structure_ind2. intros b en pi ci p Hp.
  eapply imle_ext; [intros; rewrite travS_eq; reflexivity|intros; rewrite travS_eq; reflexivity|]. apply im_body; [|exact Hp].
  clear b en pi ci p Hp. intros k f Hf. apply in_sdict in Hf as (e & He & _ & ->). split; [|apply pure_travE]. intros b en pi ci p Hp.
  eapply imle_ext; [intros; rewrite travE_eq; reflexivity|intros; rewrite travE_eq; reflexivity|]. apply im_travD; [|exact Hp].
  intros f Hf. split; [|now apply (pure_sub e)]. unfold subT in Hf. destruct (e_struct e) as [s'|] eqn:Es; [|discriminate]. injection Hf as <-. eapply IH; eauto.
Qed.
End P.
