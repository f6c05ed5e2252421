(** Structures that print alike are the same. *)
From Coq Require Import Ascii DecimalString Decimal.
From Verif Require Import PyBase IndexModel DMModel StructModel StructSpec PowerModel EntryModel LabelModel LabelSpec StrModel StrSpec
  IndexProofs StructProofs PowerProofs DMProofs PowerThms LabelThms EntrySpec EntryProofs.
Open Scope list_scope.
Open Scope nat_scope.
Infix "+++" := String.append (right associativity, at level 60).

Lemma app_assoc_s a b c : (a +++ b) +++ c = a +++ (b +++ c).
Proof. induction a as [|x a IH]; cbn; [reflexivity|now rewrite IH]. Qed.
Lemma app_empty_s a : a +++ "" = a.
Proof. induction a as [|x a IH]; cbn; [reflexivity|now rewrite IH]. Qed.
Lemma app_inj_l a r r' : a +++ r = a +++ r' -> r = r'.
Proof. induction a as [|x a IH]; cbn; [auto|]. intros H. injection H as H. auto. Qed.

(** ** Reading off a run of characters *)
Definition stops (P : ascii -> bool) (r : string) : Prop := match r with EmptyString => True | String c _ => P c = false end.
Lemma span_inj P a : forall b r r', all_chars P a -> all_chars P b -> stops P r -> stops P r' -> a +++ r = b +++ r' -> a = b /\ r = r'.
Proof.
  induction a as [|x a IH]; intros [|y b] r r' Ha Hb Hr Hr' E; cbn in *.
  - auto.
  - subst r. cbn in Hr. destruct Hb as [Hb _]. congruence.
  - subst r'. cbn in Hr'. destruct Ha as [Ha _]. congruence.
  - injection E as -> E. destruct (IH b r r' (proj2 Ha) (proj2 Hb) Hr Hr' E) as [-> ->]. auto.
Qed.

(** ** Integers *)
Definition int_char (c : ascii) : bool := let n := nat_of_ascii c in ((48 <=? n) && (n <=? 57)) || (n =? 45).
Lemma uint_chars u : all_chars int_char (NilEmpty.string_of_uint u).
Proof. induction u; cbn; auto. Qed.
Lemma int_chars z : all_chars int_char (str_int z).
Proof.
  unfold str_int. destruct (Z.to_int z) as [u|u]; cbn; [|split; [reflexivity|]]; unfold NilZero.string_of_uint; destruct u; try apply uint_chars; cbn; auto.
Qed.
Lemma int_code z z' r r' : stops int_char r -> stops int_char r' -> str_int z +++ r = str_int z' +++ r' -> z = z' /\ r = r'.
Proof.
  intros Hr Hr' E. apply (span_inj int_char) in E as [E ->]; auto using int_chars. split; [|reflexivity]. now apply str_int_inj.
Qed.
Lemma nat_code n n' r r' : stops int_char r -> stops int_char r' -> str_nat n +++ r = str_nat n' +++ r' -> n = n' /\ r = r'.
Proof. intros Hr Hr' E. apply int_code in E as [E ->]; auto. split; [lia|reflexivity]. Qed.

Lemma int_head z : exists c q, str_int z = String c q /\ int_char c = true.
Proof.
  pose proof (int_chars z) as H. destruct (str_int z) as [|c q] eqn:E; [|exists c, q; split; [reflexivity|apply H]].
  exfalso. unfold str_int in E. destruct (Z.to_int z) as [u|u]; [|discriminate E]. cbn in E. unfold NilZero.string_of_uint in E. destruct u; discriminate E.
Qed.

(** ** Joined lists *)
Section Join.
Context {A : Type} (pr : A -> string) (c : ascii) (sep : string) (d : ascii).
Fixpoint tl_join (l : list A) : string := match l with [] => EmptyString | x :: l' => String c sep +++ pr x +++ tl_join l' end.
Lemma join_tl x l : String.concat (String c sep) (map pr (x :: l)) = pr x +++ tl_join l.
Proof.
  revert x. induction l as [|y l IH]; intros x; [cbn; now rewrite app_empty_s|].
  change (String.concat (String c sep) (map pr (x :: y :: l))) with (pr x +++ (String c sep +++ String.concat (String c sep) (map pr (y :: l)))).
  now rewrite IH.
Qed.
(** [x] can be read off when something with [c] or [d] follows. *)
Definition CodeAt (ok : A -> Prop) (x : A) : Prop :=
  forall y r r', ok y -> (exists q, r = String c q \/ r = String d q) -> (exists q, r' = String c q \/ r' = String d q) ->
  pr x +++ r = pr y +++ r' -> x = y /\ r = r'.
Definition NotD (x : A) : Prop := forall r q, pr x +++ r <> String d q.
Lemma tl_join_head l r : exists q, tl_join l +++ String d r = String c q \/ tl_join l +++ String d r = String d q.
Proof. destruct l as [|x l]; cbn; eauto. Qed.
Lemma tl_join_code ok l : c <> d -> forall m r r', (forall x, In x l -> CodeAt ok x) -> (forall x, In x m -> ok x) ->
  tl_join l +++ String d r = tl_join m +++ String d r' -> l = m /\ r = r'.
Proof.
  intros Hcd. induction l as [|x l IH]; intros [|y m] r r' Hl Hm E.
  - cbn in E. injection E as ->. auto.
  - exfalso. cbn in E. injection E as E _. congruence.
  - exfalso. cbn in E. injection E as E _. congruence.
  - cbn [tl_join] in E. rewrite !app_assoc_s in E. apply app_inj_l in E.
    destruct (Hl x (or_introl eq_refl) y _ _ (Hm y (or_introl eq_refl)) (tl_join_head l r) (tl_join_head m r') E) as [-> E2].
    destruct (IH m r r' (fun z Hz => Hl z (or_intror Hz)) (fun z Hz => Hm z (or_intror Hz)) E2) as [-> ->]. auto.
Qed.
Lemma join_code ok l m r r' : c <> d -> (forall x, In x l -> CodeAt ok x /\ NotD x) -> (forall x, In x m -> ok x /\ NotD x) ->
  String.concat (String c sep) (map pr l) +++ String d r = String.concat (String c sep) (map pr m) +++ String d r' -> l = m /\ r = r'.
Proof.
  intros Hcd Hl Hm E. destruct l as [|x l], m as [|y m].
  - cbn in E. injection E as ->. auto.
  - exfalso. rewrite join_tl, app_assoc_s in E. symmetry in E. exact (proj2 (Hm y (or_introl eq_refl)) _ _ E).
  - exfalso. rewrite join_tl, app_assoc_s in E. exact (proj2 (Hl x (or_introl eq_refl)) _ _ E).
  - rewrite !join_tl, !app_assoc_s in E.
    destruct (proj1 (Hl x (or_introl eq_refl)) y _ _ (proj1 (Hm y (or_introl eq_refl))) (tl_join_head l r) (tl_join_head m r') E) as [-> E2].
    destruct (tl_join_code ok l Hcd m r r' (fun z Hz => proj1 (Hl z (or_intror Hz))) (fun z Hz => proj1 (Hm z (or_intror Hz))) E2) as [-> ->]. auto.
Qed.
End Join.

Lemma ints_code l m r r' : str_ints l +++ r = str_ints m +++ r' -> l = m /\ r = r'.
Proof.
  unfold str_ints. cbn [String.append]. rewrite !app_assoc_s. cbn [String.append]. intros E. injection E as E.
  refine (join_code str_int "," " " "]" (fun _ => True) l m r r' _ _ _ E); [discriminate| |].
  - intros x _. split.
    + intros y q q' _ [w Hw] [w' Hw'] E2. apply int_code in E2; [exact E2| |]; [destruct Hw as [->| ->]|destruct Hw' as [->| ->]]; reflexivity.
    + intros q w E2. destruct (int_head x) as (c & u & Hu & Hc). rewrite Hu in E2. cbn in E2. injection E2 as -> _. discriminate Hc.
  - intros x _. split; [exact I|]. intros q w E2. destruct (int_head x) as (c & u & Hu & Hc). rewrite Hu in E2. cbn in E2. injection E2 as -> _. discriminate Hc.
Qed.

Lemma dim_code sp sp' r r' : stops int_char r -> stops int_char r' -> sp_dim sp +++ r = sp_dim sp' +++ r' ->
  sp_nr sp = sp_nr sp' /\ sp_nc sp = sp_nc sp' /\ r = r'.
Proof.
  intros Hr Hr' E. unfold sp_dim in E. rewrite !app_assoc_s in E. cbn [String.append] in E.
  apply nat_code in E as [E1 E]; [|reflexivity|reflexivity]. injection E as E. apply nat_code in E as [E2 E]; auto.
Qed.
Lemma dim_head sp : exists c q, sp_dim sp = String c q /\ int_char c = true.
Proof. unfold sp_dim, str_nat. destruct (int_head (Z.of_nat (sp_nr sp))) as (c & q & -> & H). cbn. eauto. Qed.

Lemma dims_code dims dims' r r' : (forall q, r <> String "r" q) -> (forall q, r' <> String "r" q) ->
  str_dims dims +++ r = str_dims dims' +++ r' -> dims = dims' /\ r = r'.
Proof.
  intros Hr Hr' E. unfold str_dims in E. destruct dims as [|d dims], dims' as [|d' dims']; cbn [Nat.leb length] in E.
  - auto.
  - exfalso. cbn in E. subst r. exact (Hr _ eq_refl).
  - exfalso. cbn in E. subst r'. exact (Hr' _ eq_refl).
  - rewrite !app_assoc_s in E. apply app_inj_l in E. apply ints_code in E as [E1 E]. apply app_inj_l in E. auto.
Qed.

(** ** Structures *)
Lemma str_s_eq es order : NoDup (map e_name es) ->
  str_s (mkStruct es order) = "{"%string +++ String.concat "," (map (fun e => e_name e +++ (": "%string +++ str_e e)) es) +++ "}"%string.
Proof.
  intros H. cbn [str_s]. rewrite pydict_id, map_map; [reflexivity|]. rewrite map_map. exact H.
Qed.

Definition body (e : entry) : string := match e_struct e with None => primitiveString (e_symm e) (e_sp e) | Some s => str_s s end.
Lemma str_e_eq e : str_e e = str_dims (e_dims e) +++ body e.
Proof. destruct e. reflexivity. Qed.
Lemma str_s_head s : exists q, str_s s = String "{" q.
Proof. destruct s. cbn. eauto. Qed.
Lemma body_not_r e r q : body e +++ r <> String "r" q.
Proof.
  unfold body. destruct (e_struct e) as [s|].
  - destruct (str_s_head s) as [w ->]. discriminate.
  - unfold primitiveString. destruct (e_symm e); [discriminate|]. destruct (dim_head (e_sp e)) as (c & w & -> & H). cbn. intros E. injection E as -> _. discriminate H.
Qed.

Lemma dense_shape r c r' c' : sp_nr (sp_dense r c) = sp_nr (sp_dense r' c') -> sp_nc (sp_dense r c) = sp_nc (sp_dense r' c') -> sp_dense r c = sp_dense r' c'.
Proof. cbn. intros -> ->. reflexivity. Qed.

Definition ReadS (s : structure) : Prop := forall s' r r', Plain s -> Plain s' ->
  s_order s = map OName (map e_name (s_entries s)) -> s_order s' = map OName (map e_name (s_entries s')) ->
  str_s s +++ r = str_s s' +++ r' -> s = s' /\ r = r'.

Lemma body_code e e' r r' :
  (forall s, e_struct e = Some s -> ReadS s /\ Plain s /\ s_order s = map OName (map e_name (s_entries s))) ->
  (forall s, e_struct e' = Some s -> Plain s /\ s_order s = map OName (map e_name (s_entries s))) ->
  PlainLeaf e -> PlainLeaf e' -> stops int_char r -> stops int_char r' -> body e +++ r = body e' +++ r' ->
  e_struct e = e_struct e' /\ e_sp e = e_sp e' /\ e_symm e = e_symm e' /\ e_orig e = e_orig e' /\ r = r'.
Proof.
  intros HS HS' [_ P] [_ P'] Hr Hr' E. unfold body in E. destruct (e_struct e) as [s|], (e_struct e') as [s'|].
  - destruct P as (-> & -> & ->), P' as (-> & -> & ->). destruct (HS s eq_refl) as (R & P1 & O1), (HS' s' eq_refl) as (P2 & O2).
    destruct (R s' r r' P1 P2 O1 O2 E) as [-> ->]. auto.
  - exfalso. destruct (str_s_head s) as [q Eq]. rewrite Eq in E. unfold primitiveString in E. destruct (e_symm e'); [discriminate E|].
    destruct (dim_head (e_sp e')) as (c & w & Hw & H). rewrite Hw in E. cbn in E. injection E as <- _. discriminate H.
  - exfalso. destruct (str_s_head s') as [q Eq]. rewrite Eq in E. unfold primitiveString in E. destruct (e_symm e); [discriminate E|].
    destruct (dim_head (e_sp e)) as (c & w & Hw & H). rewrite Hw in E. cbn in E. injection E as -> _. discriminate H.
  - unfold primitiveString in E. destruct (e_symm e), (e_symm e').
    + destruct P as (n & P1 & P2), P' as (n' & P1' & P2'). rewrite !app_assoc_s in E. apply app_inj_l in E.
      apply dim_code in E as (E1 & E2 & E); [|reflexivity|reflexivity]. rewrite P1, P1' in E1. cbn in E1. subst n'. cbn in E. injection E as ->.
      rewrite P1, P1', P2, P2'. auto.
    + exfalso. destruct (dim_head (e_sp e')) as (c & w & Hw & H). rewrite Hw in E. cbn in E. injection E as <- _. discriminate H.
    + exfalso. destruct (dim_head (e_sp e)) as (c & w & Hw & H). rewrite Hw in E. cbn in E. injection E as -> _. discriminate H.
    + destruct P as [(a & b & P1) P2], P' as [(a' & b' & P1') P2']. apply dim_code in E as (E1 & E2 & E); auto.
      rewrite P1, P1' in *. rewrite P2, P2'. rewrite (dense_shape _ _ _ _ E1 E2). auto.
Qed.

Lemma ident_name n n' r r' : ident n -> ident n' -> stops ident_char r -> stops ident_char r' -> n +++ r = n' +++ r' -> n = n' /\ r = r'.
Proof. intros. now apply (span_inj ident_char). Qed.

(** What is needed of an entry to be read off. *)
Definition GoodE (e : entry) : Prop := ident (e_name e) /\ PlainLeaf e /\
  forall s, e_struct e = Some s -> Plain s /\ s_order s = map OName (map e_name (s_entries s)).

Lemma entry_ext e e' : e_name e = e_name e' -> e_dims e = e_dims e' -> e_struct e = e_struct e' -> e_sp e = e_sp e' -> e_symm e = e_symm e' -> e_orig e = e_orig e' -> e_shape e = e_shape e' -> e = e'.
Proof. destruct e, e'; cbn. intros; subst. reflexivity. Qed.

Lemma entry_code (sep : string) e e' r r' : GoodE e -> GoodE e' -> (forall s, e_struct e = Some s -> ReadS s) ->
  (forall q, stops ident_char (sep +++ q)) -> stops int_char r -> stops int_char r' ->
  e_name e +++ sep +++ str_e e +++ r = e_name e' +++ sep +++ str_e e' +++ r' -> e = e' /\ r = r'.
Proof.
  intros (I1 & L1 & S1) (I2 & L2 & S2) HR Hs Hr Hr' E.
  apply ident_name in E as [En E]; auto. apply app_inj_l in E. rewrite !str_e_eq, !app_assoc_s in E.
  apply dims_code in E as [Ed E]; [|intros q; apply body_not_r|intros q; apply body_not_r].
  apply body_code in E as (E1 & E2 & E3 & E4 & E5); auto.
  split; [|exact E5]. apply entry_ext; auto. destruct L1 as [-> _], L2 as [-> _]. reflexivity.
Qed.

Lemma Plain_GoodE es order : Plain (mkStruct es order) -> forall e, In e es -> GoodE e.
Proof. intros H e He. inversion H as [? ? ND HL HS HO]; subst. destruct (HL e He). split; [|split]; auto. intros s. now apply HS. Qed.

Lemma read_struct s : ReadS s.
Proof.
  induction s as [es order IH _] using structure_ind2. intros [es' order'] r r' P P' O O' E. cbn in O, O'.
  pose proof (Plain_GoodE _ _ P) as G. pose proof (Plain_GoodE _ _ P') as G'.
  inversion P as [? ? ND _ _ _]; subst. inversion P' as [? ? ND' _ _ _]; subst.
  rewrite (str_s_eq es) in E by exact ND. rewrite (str_s_eq es') in E by exact ND'. rewrite !app_assoc_s in E. cbn [String.append] in E. injection E as E.
  assert (Hnd : forall x : entry, NotD (fun e => e_name e +++ String ":" (String " " (str_e e))) "}" x \/ ~ ident (e_name x)).
  { intros x. destruct (e_name x) as [|a q] eqn:En.
    - left. intros w v. rewrite En. discriminate.
    - destruct (ident_char a) eqn:Ea; [left|right; intros [F _]; congruence]. intros w v. rewrite En. cbn. intros F. injection F as -> _. discriminate Ea. }
  refine ((fun H => _) (join_code (fun e => e_name e +++ String ":" (String " " (str_e e))) "," "" "}" GoodE es es' r r' _ _ _ E)).
  - destruct H as [-> ->]. auto.
  - discriminate.
  - intros x Hx. split; [|destruct (Hnd x) as [N|N]; [exact N|destruct (G x Hx) as [F _]; contradiction]].
    intros y q q' Gy [w Hw] [w' Hw'] E2. rewrite !app_assoc_s in E2.
    apply (entry_code ": " x y q q'); auto.
    + intros s0 Hs0. exact (IH x s0 Hx Hs0).
    + intros u. reflexivity.
    + destruct Hw as [-> | ->]; reflexivity.
    + destruct Hw' as [-> | ->]; reflexivity.
  - intros x Hx. split; [auto|]. destruct (Hnd x) as [N|N]; [exact N|destruct (G' x Hx) as [F _]; contradiction].
Qed.

(** ** Orders *)
Lemma ident_quote q : stops ident_char (String "'" q).
Proof. reflexivity. Qed.
Lemma repr_str_code n n' r r' : ident n -> ident n' -> repr_str n +++ r = repr_str n' +++ r' -> n = n' /\ r = r'.
Proof.
  intros I I' E. unfold repr_str in E. rewrite !app_assoc_s in E. cbn [String.append] in E. injection E as E.
  apply ident_name in E as [-> E]; auto; [|reflexivity|reflexivity]. injection E as ->. auto.
Qed.

Definition IdentO (o : oelem) : Prop := forall n, In n (oelem_names o) -> ident n.
Lemma oelem_code o o' r r' : IdentO o -> IdentO o' -> repr_oelem o +++ r = repr_oelem o' +++ r' -> o = o' /\ r = r'.
Proof.
  assert (Hcode : forall l l' r r', (forall n, In n l -> ident n) -> (forall n, In n l' -> ident n) ->
    String.concat ", " (map repr_str l) +++ String ")" r = String.concat ", " (map repr_str l') +++ String ")" r' -> l = l' /\ r = r').
  { intros l l' q q' Hl Hl' E. refine (join_code repr_str "," " " ")" ident l l' q q' _ _ _ E); [discriminate| |].
    - intros x Hx. split; [|intros u v; unfold repr_str; discriminate]. intros y u u' Iy _ _ E2. apply repr_str_code in E2; auto.
    - intros x Hx. split; [auto|]. intros u v. unfold repr_str. discriminate. }
  assert (Hone : forall n l q q', ident n -> (forall n, In n l -> ident n) -> length l <> 1 ->
    repr_str n +++ String "," (String ")" q) <> String.concat ", " (map repr_str l) +++ String ")" q').
  { intros n l q q' Hn Hl Hlen E. destruct l as [|m [|m' l]]; [| |].
    - cbn in E. discriminate E.
    - contradiction Hlen. reflexivity.
    - change (String.concat ", " (map repr_str (m :: m' :: l))) with (repr_str m +++ (", "%string +++ String.concat ", " (map repr_str (m' :: l)))) in E.
      rewrite !app_assoc_s in E. apply repr_str_code in E as [-> E]; auto; [|apply Hl; left; reflexivity]. cbn in E. discriminate E. }
  intros I I' E. unfold IdentO in *. destruct o as [n|l], o' as [n'|l'].
  - cbn in E. apply repr_str_code in E as [-> ->]; auto; [apply I; left; reflexivity|apply I'; left; reflexivity].
  - exfalso. destruct l' as [|a [|b l']]; discriminate E.
  - exfalso. destruct l as [|a [|b l]]; discriminate E.
  - cbn [oelem_names] in I, I'.
    assert (Hw : forall l r, length l <> 1 -> repr_oelem (OGroup l) +++ r = String "(" (String.concat ", " (map repr_str l) +++ String ")" r)).
    { intros k q Hk. destruct k as [|a [|b k]]; [reflexivity|contradiction Hk; reflexivity|]. cbn [repr_oelem]. rewrite !app_assoc_s. reflexivity. }
    assert (Hw1 : forall n r, repr_oelem (OGroup [n]) +++ r = String "(" (repr_str n +++ String "," (String ")" r))).
    { intros n q. cbn [repr_oelem]. rewrite !app_assoc_s. reflexivity. }
    destruct (Nat.eq_dec (length l) 1) as [L|L], (Nat.eq_dec (length l') 1) as [L'|L'].
    + destruct l as [|a [|? ?]]; try discriminate L. destruct l' as [|b [|? ?]]; try discriminate L'. rewrite !Hw1 in E. apply (app_inj_l "(") in E.
      apply repr_str_code in E as [-> E]; [|apply I; left; reflexivity|apply I'; left; reflexivity]. injection E as ->. auto.
    + exfalso. destruct l as [|a [|? ?]]; try discriminate L. rewrite Hw1, (Hw l') in E by exact L'. apply (app_inj_l "(") in E.
      exact (Hone a l' r r' (I a (or_introl eq_refl)) I' L' E).
    + exfalso. destruct l' as [|a [|? ?]]; try discriminate L'. rewrite Hw1, (Hw l) in E by exact L. apply (app_inj_l "(") in E. symmetry in E.
      exact (Hone a l r' r (I' a (or_introl eq_refl)) I L E).
    + rewrite !Hw in E by assumption. apply (app_inj_l "(") in E. apply Hcode in E as [-> ->]; auto.
Qed.
Lemma repr_oelem_head o r q : repr_oelem o +++ r <> String "]" q.
Proof. destruct o as [n|[|a [|b l]]]; discriminate. Qed.
Lemma order_code o o' r r' : (forall n, In n (flat_map oelem_names o) -> ident n) -> (forall n, In n (flat_map oelem_names o') -> ident n) ->
  str_order o +++ r = str_order o' +++ r' -> o = o' /\ r = r'.
Proof.
  intros I I' E. unfold str_order in E. rewrite !app_assoc_s in E. apply (app_inj_l "[") in E. cbn [String.append] in E.
  assert (HI : forall l, (forall n, In n (flat_map oelem_names l) -> ident n) -> forall x, In x l -> IdentO x).
  { intros l H x Hx n Hn. apply H. apply in_flat_map. eauto. }
  refine (join_code repr_oelem "," " " "]" IdentO o o' r r' _ _ _ E); [discriminate| |].
  - intros x Hx. split; [|intros u v; apply repr_oelem_head]. intros y u u' Iy _ _ E2. apply oelem_code in E2; eauto.
  - intros x Hx. split; [eauto|]. intros u v. apply repr_oelem_head.
Qed.

(** ** The whole text *)
Lemma s_dict_id es order : NoDup (map e_name es) -> s_dict (mkStruct es order) = map (fun e => (e_name e, e)) es.
Proof. intros H. unfold s_dict. cbn [s_entries]. apply pydict_id. rewrite map_map. exact H. Qed.
Definition line (e : entry) : string := "  "%string +++ e_name e +++ " = "%string +++ str_e e +++ nl.
Lemma concat_cons x l : String.concat "" (x :: l) = x +++ String.concat "" l.
Proof. destruct l; cbn; [now rewrite app_empty_s|reflexivity]. Qed.

Lemma lines_code es : forall es', (forall e, In e es -> GoodE e) -> (forall e, In e es' -> GoodE e) ->
  String.concat "" (map line es) = String.concat "" (map line es') -> es = es'.
Proof.
  induction es as [|e es IH]; intros [|e' es'] G G' E; [reflexivity| | |].
  - exfalso. cbn [map] in E. rewrite concat_cons in E. unfold line in E. discriminate E.
  - exfalso. cbn [map] in E. rewrite concat_cons in E. unfold line in E. discriminate E.
  - cbn [map] in E. rewrite !concat_cons in E. unfold line in E at 1 3. rewrite !app_assoc_s in E. apply app_inj_l in E.
    apply (entry_code " = ") in E as [-> E]; try (apply G; left; reflexivity); try (apply G'; left; reflexivity).
    + f_equal. apply (IH es'); [intros x Hx; apply G; right; exact Hx|intros x Hx; apply G'; right; exact Hx|]. apply (app_inj_l nl) in E. exact E.
    + intros s _. apply read_struct.
    + intros q. reflexivity.
    + reflexivity.
    + reflexivity.
Qed.

(** Two structures of plain entries whose [repr] is the same are equal. *)
Theorem repr_identifies s s' : Plain s -> Plain s' -> str_full s = str_full s' -> s = s'.
Proof.
  destruct s as [es order], s' as [es' order']. intros P P' E. pose proof (Plain_GoodE _ _ P) as G. pose proof (Plain_GoodE _ _ P') as G'.
  inversion P as [? ? ND _ _ IO]; subst. inversion P' as [? ? ND' _ _ IO']; subst. unfold str_full in E. cbn [s_order] in E.
  rewrite (s_dict_id es) in E by exact ND. rewrite (s_dict_id es') in E by exact ND'. rewrite !map_map in E. cbn [fst snd] in E.
  rewrite !map_length in E. apply app_inj_l in E. apply nat_code in E as [_ E]; [|reflexivity|reflexivity].
  apply app_inj_l in E. apply app_inj_l in E. apply app_inj_l in E. apply order_code in E as [-> E]; auto. apply (app_inj_l nl) in E.
  apply (lines_code es es') in E; auto. now subst.
Qed.

(** The same for [str], which also shows the size. *)
Theorem str_identifies s s' c c' : Plain s -> Plain s' -> casadi_structure s = Ok c -> casadi_structure s' = Ok c' ->
  str_casadi c = str_casadi c' <-> c = c'.
Proof.
  intros P P' Hc Hc'. split; [|intros ->; reflexivity]. intros E.
  assert (Es : cs_struct c = s) by (unfold casadi_structure in Hc; destruct (build_loop s _ _); [injection Hc as <-; reflexivity|discriminate]).
  assert (Es' : cs_struct c' = s') by (unfold casadi_structure in Hc'; destruct (build_loop s' _ _); [injection Hc' as <-; reflexivity|discriminate]).
  unfold str_casadi in E. apply app_inj_l in E. apply nat_code in E as [_ E]; [|reflexivity|reflexivity]. apply app_inj_l in E. apply (app_inj_l nl) in E.
  rewrite Es, Es' in E. apply repr_identifies in E; auto. subst s'. rewrite Hc in Hc'. now injection Hc'.
Qed.

(** For the compact form the order is not part of the text. *)
Theorem compact_identifies s s' : Plain s -> Plain s' -> (str_s s = str_s s' <-> s_entries s = s_entries s').
Proof.
  destruct s as [es order], s' as [es' order']. intros P P'. cbn [s_entries]. split.
  - intros E. assert (Q : forall es order, Plain (mkStruct es order) -> Plain (mkStruct es (map OName (map e_name es)))).
    { intros xs o H. inversion H as [? ? ND HL HS HO]; subst. constructor; auto. intros n Hn. rewrite map_map, flat_map_concat_map, map_map in Hn.
      apply in_concat in Hn as (l & Hl & Hn). apply in_map_iff in Hl as (e & <- & He). destruct Hn as [<-|[]]. now apply HL. }
    assert (E' : str_s (mkStruct es (map OName (map e_name es))) = str_s (mkStruct es' (map OName (map e_name es')))) by exact E.
    destruct (read_struct (mkStruct es (map OName (map e_name es))) (mkStruct es' (map OName (map e_name es'))) "" "") as [F _]; eauto.
    + now rewrite E'.
    + now injection F.
  - intros ->. reflexivity.
Qed.

(** ** Entries made by [entry] *)
Lemma dense_ints l sp : sparsity_dense l = Ok sp -> exists r c, sp = sp_dense r c.
Proof.
  unfold sparsity_dense. destruct l as [|r [|c [|? ?]]]; try discriminate; cbn; destruct (_ || _); try discriminate; intros [= <-]; eauto.
Qed.
Lemma upper_inter n : sp_inter (sp_dense n n) (sp_upper n) = Ok (sp_upper n).
Proof.
  unfold sp_inter. unfold sp_dense at 1 2, sp_upper at 1 2. cbn [sp_nr sp_nc]. rewrite Nat.eqb_refl. cbn [andb]. f_equal.
  unfold sp_dense, sp_upper at 2. cbn [sp_nr sp_nc sp_pat]. f_equal. apply filter_ext_in. intros p Hp. rewrite pos_mem_upper. apply in_all_pos in Hp.
  replace (snd p <? n) with true by (symmetry; apply Nat.ltb_lt; lia). apply andb_true_r.
Qed.

(** Entries given by shape (integers), repeat and either struct or type are plain. *)
Theorem entry_plain {T} name (kw : kwargs T) (e : centry T) : entry_init name kw = Ok e ->
  (forall k v, In (k, v) kw -> In k ["shape"; "repeat"; "struct"; "type"]%string) ->
  (forall sp, ~ In ("shape"%string, VSp sp) kw) ->
  (forall v, In ("struct"%string, v) kw -> forall w, ~ In ("type"%string, w) kw) ->
  e_name (ce_entry e) = name /\ PlainLeaf (ce_entry e).
Proof.
  intros H HK HSp HT. unfold entry_init in H. destruct (negb _); [discriminate|]. destruct (existsb _ forbidden) eqn:Ef; [discriminate|].
  assert (Hin : forall k v, dict_get k kw = Some v -> In (k, v) kw).
  { clear. intros k v. induction kw as [|[k' v'] kw IH]; cbn; [discriminate|]. destruct (String.eqb_spec k k') as [->|]; [intros [= ->]; auto|auto]. }
  assert (Hno : forall k, ~ In k ["shape"; "repeat"; "struct"; "type"]%string -> dict_get k kw = None).
  { intros k Hk. destruct (dict_get k kw) as [v|] eqn:E; [|reflexivity]. apply Hin, HK in E. contradiction. }
  unfold kw_shapestruct, kw_sym, kw_expr in H.
  rewrite (Hno "shapestruct"%string), (Hno "sym"%string), (Hno "expr"%string) in H by (cbn; intuition discriminate).
  destruct (kw_repeat kw) as [rep|]; [|discriminate]. cbn [rbind] in H.
  destruct (kw_shape kw) as [sp|] eqn:Esp; [|discriminate]. cbn [rbind] in H.
  assert (Hd : exists r c, sp = sp_dense r c).
  { unfold kw_shape in Esp. destruct (dict_get "shape" kw) as [v|] eqn:Ev; [|now apply dense_ints in Esp].
    destruct v; try discriminate; [now apply dense_ints in Esp| | |]; [| |exfalso; exact (HSp _ (Hin _ _ Ev))];
      (destruct (_ || _); [discriminate|]; destruct (ints l); [now apply dense_ints in Esp|discriminate]). }
  destruct (kw_type kw sp) as [[[symm orig] sp']|] eqn:Et; [|discriminate]. cbn [rbind] in H. injection H as <-. cbn [ce_entry].
  split; [reflexivity|]. split; [reflexivity|]. cbn [e_struct e_sp e_symm e_orig].
  unfold kw_type in Et. destruct (dict_get "type" kw) as [w|] eqn:Ew.
  - replace (kw_struct kw) with (@None structure).
    2: { unfold kw_struct. destruct (dict_get "struct" kw) as [v|] eqn:Ev; [|reflexivity]. exfalso. exact (HT v (Hin _ _ Ev) w (Hin _ _ Ew)). }
    destruct w; try discriminate. destruct (String.eqb _ _); [|discriminate]. destruct Hd as (r & c & ->). cbn [sp_nr sp_nc sp_dense] in Et.
    destruct (Nat.eqb_spec r c) as [->|]; [|discriminate]. cbn [negb] in Et. change (sp_nr (sp_dense c c)) with c in Et.
    change (Spy c c (all_pos c c)) with (sp_dense c c) in Et. rewrite upper_inter in Et. cbn [rbind] in Et. injection Et as <- <- <-. eauto.
  - injection Et as <- <- <-. unfold kw_struct. destruct (dict_get "struct" kw) as [v|] eqn:Ev.
    + assert (Hs1 : kw_shape kw = sparsity_dense [1; 1]%Z).
      { unfold kw_shape. destruct (dict_get "shape" kw) as [u|] eqn:Eu; [|reflexivity]. exfalso. apply Hin in Ev, Eu.
        assert (Hf : existsb (fun c => has (fst c) kw && existsb (fun f => has f kw) (snd c)) forbidden = true).
        { apply existsb_exists. exists ("shape"%string, ["struct"%string]). split; [left; reflexivity|]. cbn [fst snd existsb]. unfold has.
          assert (Hm : forall k v, In (k, v) kw -> str_mem k (map fst kw) = true).
          { intros k x Hx. apply existsb_exists. exists k. split; [|apply String.eqb_refl]. apply in_map_iff. exists (k, x). auto. }
          now rewrite (Hm _ _ Eu), (Hm _ _ Ev). }
        congruence. }
      rewrite Hs1 in Esp. injection Esp as <-. destruct v; try (split; [exists 1, 1; reflexivity|reflexivity]); auto.
    + destruct Hd as (r & c & ->). eauto.
Qed.
