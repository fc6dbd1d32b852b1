(** * The generated text is the written trees *)
From Verif Require Import Base BaseFacts Types TypeNames Tokenizer Function Event Contract Heck Derive RustSyntax Quote DeriveText DeriveTree.
From Coq Require Import String Lia.
Set Implicit Arguments.
Notation length := List.length.
Local Open Scope N_scope.
Local Open Scope list_scope.

Lemma mapM_rmap {A B C} (f : A -> res C) (h : A -> res B) (g : B -> C) (l : list A) :
  (forall x, In x l -> f x = rmap g (h x)) -> mapM f l = rmap (map g) (mapM h l).
Proof.
  unfold rmap. induction l as [ | x l IH ]; intros H; [ reflexivity | ].
  cbn [mapM]. rewrite (H x (or_introl eq_refl)). unfold rmap. destruct (h x); cbn [bind]; [ | reflexivity | reflexivity ].
  rewrite IH by (intros; apply H; right; assumption). destruct (mapM h l); reflexivity.
Qed.
Lemma mapi_mapM_rmap {A B C} (f : nat -> A -> res C) (h : nat -> A -> res B) (g : B -> C) (l : list A) :
  (forall i x, f i x = rmap g (h i x)) -> mapM (fun r => r) (mapi f l) = rmap (map g) (mapM (fun r => r) (mapi h l)).
Proof.
  intros H. unfold mapi. generalize 0%nat. induction l as [ | x l IH ]; intros i; [ reflexivity | ].
  cbn [mapi_from mapM]. rewrite H. unfold rmap in *. destruct (h i x); cbn [bind]; [ | reflexivity | reflexivity ].
  rewrite IH. destruct (mapM _ _); reflexivity.
Qed.
Lemma sep_cons s x y l : sep s (x :: y :: l) = x ++ s ++ sep s (y :: l).
Proof. reflexivity. Qed.
Lemma sep_app s l l' : l <> [] -> l' <> [] -> sep s (l ++ l') = sep s l ++ s ++ sep s l'.
Proof.
  intros N N'. induction l as [ | x [ | y l ] IH ]; [ congruence | | ].
  - destruct l'; [ congruence | reflexivity ].
  - cbn [app]. rewrite !sep_cons, <- !app_assoc. do 2 f_equal. apply IH. discriminate.
Qed.
(** Lists of lists written with separators *)
Lemma sep_concat s (l : list (list toks)) :
  (forall x, In x l -> x <> []) -> sep s (map (sep s) l) = sep s (List.concat l).
Proof.
  induction l as [ | x [ | y l ] IH ]; intros H; [ reflexivity | cbn; rewrite app_nil_r; reflexivity | ].
  cbn [map]. rewrite sep_cons. change (sep s y :: map (sep s) l) with (map (sep s) (y :: l)). rewrite IH by (intros; apply H; right; assumption).
  rewrite (concat_cons x). rewrite sep_app; [ reflexivity | apply H; left; reflexivity | ].
  cbn [List.concat]. intros E. apply app_eq_nil in E. apply (H y); [ right; left; reflexivity | apply E ].
Qed.

Ltac norm := cbn; repeat (progress (rewrite <- ?app_assoc; cbn [app])); rewrite ?app_nil_r; try reflexivity.
Ltac go H := rewrite H; unfold rmap; cbn [bind].

Lemma syntax_ok t : to_syntax_string t = rmap wr (syntax_tree t).
Proof.
  induction t; cbn [to_syntax_string syntax_tree]; try reflexivity;
    go IHt; destruct (syntax_tree t); cbn [bind]; norm.
Qed.
Lemma param_vec_ok l : param_vec l = rmap wr (params_tree l).
Proof.
  unfold param_vec, params_tree. rewrite (@mapM_rmap _ _ _ _ param_tree wr).
  - unfold rmap. destruct (mapM param_tree l); cbn [bind]; norm.
  - intros x _. unfold param_tree. go (syntax_ok (p_kind x)). destruct (syntax_tree (p_kind x)); cbn [bind]; norm.
Qed.
Lemma type_ok t : type_text t = rmap wr_ty (type_tree t).
Proof.
  induction t; cbn [type_text type_tree]; try reflexivity; try (go IHt; destruct (type_tree t); cbn [bind]; norm).
  match goal with |- context [?n =? 32] => destruct (n =? 32) end; reflexivity.
Qed.
Lemma bound_ok t i : bound_text t i = rmap (fun l => commas (map wr_generic l)) (bound_tree t i).
Proof.
  destruct t; cbn [bound_text bound_tree type_tree]; try reflexivity;
    try (go (type_ok t); destruct (type_tree t); cbn [bind]; norm).
  match goal with |- context [?n =? 32] => destruct (n =? 32) end; reflexivity.
Qed.
Lemma bounds_ok l :
  rmap commas (mapM (fun r => r) (mapi (fun index param => bound_text (p_kind param) index) l)) =
  rmap (fun l => commas (map wr_generic l)) (bounds_tree l).
Proof.
  unfold bounds_tree.
  rewrite (@mapi_mapM_rmap _ _ _ _ (fun index param => bound_tree (p_kind param) index) (fun l => commas (map wr_generic l)))
    by (intros; apply bound_ok).
  assert (N : forall i x, match bound_tree x i with Ok [] => False | _ => True end).
  { intros i x. destruct x; cbn [bound_tree]; try exact I; match goal with |- context [type_tree ?t] => destruct (type_tree t); exact I end. }
  unfold rmap. destruct (mapM _ _) as [ r | | ] eqn:E; cbn [bind]; [ | reflexivity | reflexivity ]. f_equal.
  assert (Ne : forall x, In x r -> x <> []).
  { revert r E. unfold mapi. generalize 0%nat. induction l as [ | p l IH ]; intros i r; cbn [mapi_from mapM].
    - intros [= <-] x [].
    - specialize (N i (p_kind p)). destruct (bound_tree (p_kind p) i) as [ g | | ]; cbn [bind]; try discriminate.
      destruct (mapM _ _) as [ r' | | ] eqn:E'; cbn [bind]; try discriminate. intros [= <-] x [ <- | Hx ].
      + intros ->. exact N.
      + exact (IH _ _ E' x Hx). }
  unfold commas. rewrite concat_map.
  rewrite <- (@sep_concat (pu ",") (map (map wr_generic) r)).
  - rewrite map_map. reflexivity.
  - intros x Hx. apply in_map_iff in Hx. destruct Hx as [ y [ <- Hy ] ]. specialize (Ne y Hy). destruct y; [ congruence | discriminate ].
Qed.
Lemma template_ok t n : template_text t n = wr (template_tree t n).
Proof. destruct t; reflexivity. Qed.
Lemma to_token_ok t : forall e, to_token_text (wr e) t = rmap wr (to_token_tree e t).
Proof.
  induction t; intros e; cbn [to_token_text to_token_tree]; try (norm; fail);
    change (quote t_inner []) with (wr (name "inner")); go (IHt (name "inner"));
    destruct (to_token_tree (name "inner") t); cbn [bind]; norm.
Qed.
Lemma map_repeat' {A B} (f : A -> B) x n : map f (repeat x n) = repeat (f x) n.
Proof. induction n; [ reflexivity | cbn; congruence ]. Qed.
Lemma from_token_ok t : forall e, from_token_text t (wr e) = rmap wr (from_token_tree t e).
Proof.
  induction t; intros e; cbn [from_token_text from_token_tree]; try (norm; fail).
  - change (quote t_inner []) with (wr (name "inner")); go (IHt (name "inner"));
    destruct (from_token_tree t (name "inner")); cbn [bind]; norm.
  - match goal with |- context [?n =? 32] => destruct (n =? 32) end; norm.
  - change (quote t_inner []) with (wr (name "inner")); go (IHt (name "inner"));
    destruct (from_token_tree t (name "inner")); cbn [bind]; [ | reflexivity | reflexivity ].
    change (quote t_next []) with (wr (method (name "iter") "next")). rewrite <- map_repeat'.
    generalize (repeat (method (name "iter") "next") (N.to_nat size)). intros l. norm.
Qed.
Lemma output_kinds_ok l : output_kinds l = rmap wr_ty (output_tree l).
Proof.
  unfold output_kinds, output_tree. destruct l as [ | x [ | y l ] ]; [ reflexivity | | ].
  - rewrite type_ok. unfold rmap. destruct (type_tree (p_kind x)); cbn [bind]; norm.
  - rewrite (@mapM_rmap _ _ _ _ (fun param => type_tree (p_kind param)) wr_ty) by (intros; apply type_ok).
    unfold rmap. destruct (mapM _ (x :: y :: l)); cbn [bind]; norm.
Qed.
Lemma tokenize_ok names l : tokenize_text names l = rmap (map wr) (tokenize_tree names l).
Proof.
  unfold tokenize_text, tokenize_tree. apply mapM_rmap. intros x _. rewrite template_ok. apply to_token_ok.
Qed.
Definition wr_body (b : list (binder * expr) * expr) : toks :=
  List.concat (map (fun x => wr_binder (fst x) ++ wr (snd x) ++ pu ";") (fst b)) ++ wr (snd b).
Lemma output_implementation_ok l : output_implementation l = rmap wr_body (decode_tree l).
Proof.
  unfold output_implementation, decode_tree. destruct l as [ | x [ | y l ] ]; [ reflexivity | | ].
  - change (quote t_out []) with (wr (name "out")). rewrite from_token_ok. unfold rmap.
    destruct (from_token_tree _ _); cbn [bind]; norm.
  - rewrite (@mapM_rmap _ _ _ _ (fun param => from_token_tree (p_kind param) (expecting (method (name "out") "next"))) wr)
      by (intros p _; rewrite <- from_token_ok; reflexivity).
    unfold rmap. destruct (mapM _ (x :: y :: l)); cbn [bind]; norm.
Qed.
Lemma mutability_ok m : mutability_text m = wr (mutability_tree m).
Proof. destruct m; reflexivity. Qed.
Lemma definitions_ok names {A} (kinds : list A) : length names = length kinds ->
  definitions names (template_names kinds) = map wr_field (typed names).
Proof.
  intros L. unfold definitions, template_names, typed, mapi. revert kinds L. generalize 0%nat.
  induction names as [ | n names IH ]; intros i [ | k kinds ]; try discriminate; [ reflexivity | ]. intros L. injection L as L.
  cbn [mapi_from combine map]. rewrite (IH _ _ L). reflexivity.
Qed.
Lemma mapM_length {A B} (f : A -> res B) l r : mapM f l = Ok r -> length r = length l.
Proof.
  revert r. induction l as [ | x l IH ]; cbn [mapM]; intros r; [ intros [= <-]; reflexivity | ].
  destruct (f x); cbn [bind]; try discriminate. destruct (mapM f l); cbn [bind]; try discriminate. intros [= <-]. cbn. f_equal. apply IH. reflexivity.
Qed.
Lemma input_names_length l names : input_names l = Ok names -> length names = length l.
Proof.
  unfold input_names, mapi. intros H. apply mapM_length in H. rewrite H. generalize 0%nat. clear. induction l; intros i; [ reflexivity | cbn; f_equal; apply IHl ].
Qed.
Lemma function_ok f : function_text f = rmap wr_item (function_tree f).
Proof.
  unfold function_text, function_tree.
  destruct (input_names (f_inputs f)) as [ names | | ] eqn:En; cbn [bind]; [ | reflexivity | reflexivity ].
  pose proof (bounds_ok (f_inputs f)) as B.
  destruct (mapM (fun r => r) _) as [ ds | | ], (bounds_tree (f_inputs f)) as [ bs | | ]; try discriminate B;
    cbn [bind]; [ | unfold rmap in *; cbn [bind] in *; congruence | unfold rmap in *; cbn [bind] in *; congruence ].
  unfold rmap in B; cbn [bind] in B. injection B as B.
  rewrite (@mapM_rmap _ _ _ _ (fun param => type_tree (p_kind param)) wr_ty) by (intros; apply type_ok). unfold rmap at 1.
  destruct (mapM _ (f_inputs f)) as [ kinds | | ] eqn:Ek; cbn [bind]; [ | reflexivity | reflexivity ].
  go (tokenize_ok names (f_inputs f)). destruct (tokenize_tree _ _) as [ tokenize | | ]; cbn [bind]; [ | reflexivity | reflexivity ].
  go (output_kinds_ok (f_outputs f)). destruct (output_tree _) as [ result | | ]; cbn [bind]; [ | reflexivity | reflexivity ].
  go (output_implementation_ok (f_outputs f)). destruct (decode_tree _) as [ [ body value ] | | ]; cbn [bind]; [ | reflexivity | reflexivity ].
  go (param_vec_ok (f_inputs f)). destruct (params_tree (f_inputs f)) as [ inputs | | ]; cbn [bind]; [ | reflexivity | reflexivity ].
  go (param_vec_ok (f_outputs f)). destruct (params_tree (f_outputs f)) as [ outputs | | ]; cbn [bind]; [ | reflexivity | reflexivity ].
  destruct (ident _) as [ m | | ]; cbn [bind]; [ | reflexivity | reflexivity ].
  rewrite definitions_ok by (rewrite map_length, (mapM_length _ _ Ek); apply (input_names_length _ En)).
  rewrite mutability_ok. f_equal.
  unfold fn_function, fn_encode_input, fn_call, wr_body. generalize (mutability_tree (f_state_mutability f)) (typed names). intros mutability params.
  unfold commas in B. cbn. cbn in B. rewrite B. norm.
Qed.
Lemma constructor_ok c : constructor_text c = rmap wr_item (constructor_tree c).
Proof.
  unfold constructor_text, constructor_tree.
  destruct (input_names (k_inputs c)) as [ names | | ] eqn:En; cbn [bind]; [ | reflexivity | reflexivity ].
  pose proof (bounds_ok (k_inputs c)) as B.
  destruct (mapM (fun r => r) _) as [ ds | | ], (bounds_tree (k_inputs c)) as [ bs | | ]; try discriminate B;
    cbn [bind]; [ | unfold rmap in *; cbn [bind] in *; congruence | unfold rmap in *; cbn [bind] in *; congruence ].
  unfold rmap in B; cbn [bind] in B. injection B as B.
  rewrite (@mapM_rmap _ _ _ _ (fun param => type_tree (p_kind param)) wr_ty) by (intros; apply type_ok). unfold rmap at 1.
  destruct (mapM _ (k_inputs c)) as [ kinds | | ] eqn:Ek; cbn [bind]; [ | reflexivity | reflexivity ].
  go (tokenize_ok names (k_inputs c)). destruct (tokenize_tree _ _) as [ tokenize | | ]; cbn [bind]; [ | reflexivity | reflexivity ].
  go (param_vec_ok (k_inputs c)). destruct (params_tree (k_inputs c)) as [ inputs | | ]; cbn [bind]; [ | reflexivity | reflexivity ].
  rewrite definitions_ok by (rewrite map_length, (mapM_length _ _ Ek); apply (input_names_length _ En)). f_equal.
  unfold fn_constructor. generalize (typed names). intros params.
  unfold commas in B. cbn. cbn in B. rewrite B. destruct params; norm.
Qed.
Lemma log_ok e : log_text e = rmap wr_item (log_tree e).
Proof.
  unfold log_text, log_tree.
  destruct (field_names (e_inputs e)) as [ names | | ] eqn:En; cbn [bind]; [ | reflexivity | reflexivity ].
  rewrite (@mapM_rmap _ _ _ _ (fun param => type_tree (ep_kind param)) wr_ty) by (intros; apply type_ok). unfold rmap at 1.
  destruct (mapM _ (e_inputs e)) as [ kinds | | ] eqn:Ek; cbn [bind]; [ | reflexivity | reflexivity ].
  destruct (ident _) as [ m | | ]; cbn [bind]; [ | reflexivity | reflexivity ]. unfold rmap. cbn [bind]. f_equal.
  assert (L : map (fun x => quote t_log_field [("param_name"%string, q_ident (fst x)); ("kind"%string, One (snd x))]) (combine names (map wr_ty kinds)) =
              map (fun f => [kw "pub"] ++ wr_field f) (combine names kinds)).
  { clear. revert kinds. induction names as [ | n names IH ]; intros [ | k kinds ]; try reflexivity. cbn [map combine]. rewrite IH. f_equal. norm. }
  rewrite L. generalize (combine names kinds). clear. intros fields. norm.
Qed.
Lemma filter_init_ok l :
  mapM (fun r => r) (mapi (fun index (x : str * EventParam) =>
       do to_token <- to_token_text (quote t_i []) (ep_kind (snd x));
       Ok (quote t_filter_init [("topic"%string, q_ident (numbered (lit "topic") index)); ("param_name"%string, q_ident (fst x)); ("i"%string, One (quote t_i []));
             ("to_token"%string, One to_token)])) l) =
  rmap (map (fun x => ([KId (fst x)] ++ pu ":" ++ wr (snd x)) ++ pu ",")) (filter_init_tree l).
Proof.
  unfold filter_init_tree. apply mapi_mapM_rmap. intros i x.
  change (quote t_i []) with (wr (name "i")). go (to_token_ok (ep_kind (snd x)) (name "i")).
  destruct (to_token_tree _ _); cbn [bind]; [ | reflexivity | reflexivity ]. generalize (numbered (lit "topic") i). intros topic. norm.
Qed.
Lemma event_params_ok l :
  mapM (fun x => do kind <- to_syntax_string (ep_kind x);
       Ok (quote t_event_param [("name"%string, q_str (ep_name x)); ("kind"%string, One kind); ("indexed"%string, q_bool (ep_indexed x))])) l =
  rmap (map wr) (mapM event_param_tree l).
Proof.
  apply mapM_rmap. intros x _. unfold event_param_tree. go (syntax_ok (ep_kind x)). destruct (syntax_tree (ep_kind x)); cbn [bind]; norm.
Qed.
Lemma sep_nil l : sep [] l = List.concat l.
Proof.
  induction l as [ | x [ | y l ] IH ]; [ reflexivity | cbn; rewrite app_nil_r; reflexivity | ].
  rewrite sep_cons, IH. reflexivity.
Qed.
Lemma mapi_length {A B} (f : nat -> A -> B) l : length (mapi f l) = length l.
Proof. unfold mapi. generalize 0%nat. induction l; intros i; [ reflexivity | cbn; f_equal; apply IHl ]. Qed.
Lemma field_names_length l names : field_names l = Ok names -> length names = length l.
Proof. unfold field_names. intros H. apply mapM_length in H. rewrite H. apply mapi_length. Qed.
Lemma topic_names_length l names : length names = length l -> length (topic_names l names) = length (filter ep_indexed l).
Proof.
  unfold topic_names. revert names. induction l as [ | x l IH ]; intros [ | n names ]; try discriminate; [ reflexivity | ].
  intros [= L]. cbn. destruct (ep_indexed x); cbn; rewrite IH by assumption; reflexivity.
Qed.
Lemma event_ok e : event_text e = rmap wr_item (event_tree e).
Proof.
  unfold event_text, event_tree.
  destruct (field_names (e_inputs e)) as [ names | | ] eqn:En; cbn [bind]; [ | reflexivity | reflexivity ].
  rewrite (@mapM_rmap _ _ _ _ (fun param => from_token_tree (ep_kind param) log_next) wr)
    by (intros p _; change (quote t_log_next []) with (wr log_next); apply from_token_ok). unfold rmap at 1.
  destruct (mapM _ (e_inputs e)) as [ convert | | ] eqn:Ec; cbn [bind]; [ | reflexivity | reflexivity ].
  rewrite (@mapM_rmap _ _ _ _ (fun param => type_tree (ep_kind param)) wr_ty) by (intros; apply type_ok). unfold rmap at 1.
  destruct (mapM _ (filter ep_indexed (e_inputs e))) as [ kinds | | ] eqn:Ek; cbn [bind]; [ | reflexivity | reflexivity ].
  go (filter_init_ok (firstn 3 (combine (topic_names (e_inputs e) names) (filter ep_indexed (e_inputs e))))).
  destruct (filter_init_tree _) as [ init | | ]; cbn [bind]; [ | reflexivity | reflexivity ].
  go (event_params_ok (e_inputs e)). destruct (mapM event_param_tree _) as [ params | | ]; cbn [bind]; [ | reflexivity | reflexivity ].
  destruct (ident (to_snake_case _)) as [ m | | ]; cbn [bind]; [ | reflexivity | reflexivity ].
  destruct (ident (to_camel_case _)) as [ camel | | ]; cbn [bind]; [ | reflexivity | reflexivity ].
  assert (Ln : length (topic_names (e_inputs e) names) = length kinds)
    by (rewrite (mapM_length _ _ Ek); apply topic_names_length, field_names_length, En).
  rewrite definitions_ok by (rewrite map_length; exact Ln).
  assert (Lw : map (fun _ => quote t_any []) (map wr_field (typed (topic_names (e_inputs e) names))) =
               map wr (map (fun _ : str => EPath (ethabi ["Topic"%string; "Any"%string])) (topic_names (e_inputs e) names))).
  { unfold typed, mapi. generalize 0%nat. generalize (topic_names (e_inputs e) names). clear. induction l as [ | n l IH ]; intros i; [ reflexivity | ].
    cbn [mapi_from map]. rewrite IH. reflexivity. }
  rewrite Lw. clear Lw.
  assert (Ld : map (fun x => quote t_filter_declaration [("template_name"%string, q_ident (snd x)); ("kind"%string, One (fst x))])
                 (combine (map wr_ty kinds) (template_names (map wr_ty kinds))) = map wr_generic (topic_bounds kinds)).
  { unfold topic_bounds, template_names, mapi. generalize 0%nat. clear. induction kinds as [ | k kinds IH ]; intros i; [ reflexivity | ].
    cbn [mapi_from map combine]. rewrite IH. f_equal. generalize (numbered (lit "T") i). intros t. norm. }
  rewrite Ld. clear Ld.
  assert (Li : map (fun x => quote t_log_init [("param_name"%string, q_ident (fst x)); ("convert"%string, One (snd x))]) (combine names (map wr convert)) =
               map (fun x => [KId (fst x)] ++ pu ":" ++ wr (snd x)) (combine names convert)).
  { clear. revert convert. induction names as [ | n names IH ]; intros [ | k convert ]; try reflexivity. cbn [map combine]. rewrite IH. f_equal. norm. }
  rewrite Li. clear Li. f_equal.
  unfold fn_event, fn_filter, fn_wildcard_filter, fn_parse_log.
  generalize (typed (topic_names (e_inputs e) names)) (topic_bounds kinds) (combine names convert) (to_camel_case (e_name e))
    (map (fun _ : str => EPath (ethabi ["Topic"%string; "Any"%string])) (topic_names (e_inputs e) names)) (e_anonymous e).
  clear. intros definitions bounds fields camel_case wildcards anonymous.
  cbn. rewrite sep_nil. norm.
Qed.
Lemma contract_ok c fs es : contract_text c fs es = rmap wr_items (contract_tree c fs es).
Proof.
  unfold contract_text, contract_tree.
  assert (K : match c_constructor c with None => Ok [] | Some k => constructor_text k end =
              rmap wr_items match c_constructor c with None => Ok [] | Some k => do i <- constructor_tree k; Ok [i] end).
  { destruct (c_constructor c) as [ k | ]; [ | reflexivity ]. go (constructor_ok k). destruct (constructor_tree k); cbn [bind]; try reflexivity.
    unfold wr_items. cbn [map List.concat]. rewrite app_nil_r. reflexivity. }
  go K. clear K. destruct (match c_constructor c with None => _ | Some k => _ end) as [ k | | ]; cbn [bind]; [ | reflexivity | reflexivity ].
  rewrite (@mapM_rmap _ _ _ _ function_tree wr_item) by (intros; apply function_ok). unfold rmap at 1.
  destruct (mapM function_tree _) as [ functions | | ]; cbn [bind]; [ | reflexivity | reflexivity ].
  rewrite (@mapM_rmap _ _ _ _ event_tree wr_item) by (intros; apply event_ok). unfold rmap at 1.
  destruct (mapM event_tree _) as [ events | | ]; cbn [bind]; [ | reflexivity | reflexivity ].
  rewrite (@mapM_rmap _ _ _ _ log_tree wr_item) by (intros; apply log_ok). unfold rmap at 1.
  destruct (mapM log_tree _) as [ logs | | ]; cbn [bind]; [ | reflexivity | reflexivity ]. f_equal. clear.
  unfold wr_items. rewrite !map_app, !concat_app. generalize (List.concat (map wr_item k)). intros ctor. clear k.
  cbn. rewrite !sep_nil. norm.
Qed.
