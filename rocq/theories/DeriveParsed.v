(** * The generated text parses as the trees of DeriveTree.v *)
From Verif Require Import Base BaseFacts StrFacts Types AbiSpec Function Event EventSpec Contract Heck HeckFacts Derive DeriveSpec DeriveAccepts RustSyntax DeriveText DeriveTextFacts DeriveTree
  DeriveCalls DeriveGenerated RustEval GeneratedSpec DeriveModules DeriveLogs DeriveRefused DeriveDecides RustParse RustParseFacts.
From Coq Require Import String Lia.
Notation length := List.length.
Set Implicit Arguments.
Local Open Scope N_scope.
Local Open Scope list_scope.

(** ** Names *)
Lemma words_start s : forall cur m, (cur = [] -> m = Boundary) -> (forall c w, cur = c :: w -> c <> 95) -> Forall (fun w => exists c w', w = c :: w' /\ c <> 95) (words s cur m).
Proof.
  induction s as [ | c s IH ]; intros cur m B C; [ constructor | ]. cbn [words]. destruct (c =? 95) eqn:E.
  - apply N.eqb_eq in E. subst c. apply IH; destruct cur as [ | d cur ]; try discriminate; auto. intros c w X. injection X as <- _. eapply C; reflexivity.
  - apply N.eqb_neq in E. assert (W : exists d w, cur ++ [c] = d :: w /\ d <> 95) by (destruct cur as [ | d cur ]; [ exists c, []; auto | exists d, (cur ++ [c]); split; [ reflexivity | eapply C; reflexivity ] ]).
    assert (NB : forall m', cur ++ [c] = [] -> m' = Boundary) by (intros m' X; destruct cur; discriminate).
    assert (NC : forall d w, cur ++ [c] = d :: w -> d <> 95) by (intros d w X; destruct W as (d' & w' & Y & Z); rewrite Y in X; injection X as <- _; exact Z).
    destruct s as [ | d s ]; [ constructor; [ exact W | constructor ] | ]. set (nm := if is_lower c then Lowercase else if is_upper c then Uppercase else m).
    destruct (_ || _); [ constructor; [ exact W | apply IH; [ reflexivity | discriminate ] ] | ].
    destruct m; cbn [andb]; try (apply IH; auto; fail). destruct (is_upper c && is_lower d); [ | apply IH; auto ].
    constructor; [ | apply IH; [ discriminate | intros x w X; injection X as <- _; exact E ] ]. destruct cur as [ | x cur ]; [ discriminate (B eq_refl) | ]. exists x, cur. split; [ reflexivity | eapply C; reflexivity ].
Qed.
Lemma snake_start s : forall w, to_snake_case s <> 95 :: w.
Proof.
  intros w. unfold to_snake_case. pose proof (@words_start s [] Boundary (fun _ => eq_refl) ltac:(discriminate)) as H. destruct (words s [] Boundary) as [ | a l ]; [ discriminate | ].
  inversion H as [ | ? ? (c & w' & -> & N) _ ]; subst. assert (L : to_lower c <> 95) by (unfold to_lower; destruct (is_upper c) eqn:U; [ apply upper_iff in U; unfold upper in U; lia | exact N ]).
  destruct l; cbn [map join app]; congruence.
Qed.
Lemma camel_start s : forall w, to_camel_case s <> 95 :: w.
Proof.
  intros w E. apply (camel_case_no s). rewrite E. left. reflexivity.
Qed.
Lemma usable_name s : usable s -> s <> [95] -> is_name s = true.
Proof.
  intros [ _ U ] N. unfold is_name. apply andb_true_iff. split; apply negb_true_iff.
  - destruct (existsb (str_eqb s) reserved) eqn:E; [ | reflexivity ]. exfalso. apply U. apply keyword_iff. exact E.
  - destruct (str_eqb s (lit "_")) eqn:E; [ | reflexivity ]. apply str_eqb_eq in E. contradiction.
Qed.
Lemma usable_filled s : usable s -> filled s = true.
Proof. intros [ (c & s' & -> & _) _ ]. reflexivity. Qed.
Lemma usable_segment s : usable s -> s <> [95] -> seg_ok s = true.
Proof. intros U N. unfold seg_ok, is_segment. rewrite (usable_name U N), (usable_filled U). reflexivity. Qed.
Lemma parameter_start i x n : parameter_name i x n -> n <> [95].
Proof.
  intros (A & B & C). destruct (p_name x) as [ | c s ] eqn:E; [ rewrite A by reflexivity; discriminate | ]. destruct (str_eqb (c :: s) (lit "self")) eqn:K.
  - apply str_eqb_eq in K. rewrite B by exact K. discriminate.
  - rewrite C; [ apply snake_start | discriminate | intros X; rewrite X in K; discriminate ].
Qed.
Lemma field_start i x n : field_name i x n -> n <> [95].
Proof.
  intros (A & B & C). destruct (ep_name x) as [ | c s ] eqn:E; [ | rewrite C; [ apply snake_start | discriminate ] ]. destruct (ep_indexed x); [ rewrite A by reflexivity | rewrite B by reflexivity ]; discriminate.
Qed.
Lemma named_all A (nm : nat -> A -> str -> Prop) l names : (forall i x n, nm i x n -> n <> [95]) -> DeriveSpec.named nm l names -> Forall (fun n => n <> [95]) names.
Proof.
  intros H [ L N ]. apply Forall_forall. intros n I. apply In_nth_error in I as [ i I ]. destruct (nth_error l i) as [ x | ] eqn:E.
  - destruct (N i x E) as (n' & E' & X). rewrite I in E'. injection E' as <-. eapply H. exact X.
  - apply nth_error_None in E. assert (i < length names)%nat by (apply nth_error_Some; congruence). lia.
Qed.
Definition good (s : str) : Prop := is_name s = true /\ seg_ok s = true.
Lemma good_names A (nm : nat -> A -> str -> Prop) l names : (forall i x n, nm i x n -> n <> [95]) -> DeriveSpec.named nm l names -> Forall usable names -> Forall good names.
Proof.
  intros H N U. pose proof (@named_all _ _ _ _ H N) as W. rewrite Forall_forall in *. intros n I. split; [ apply usable_name; auto | apply usable_segment; auto ].
Qed.
Lemma numbered_name s i : In s ["T"; "U"; "topic"]%string -> good (numbered (lit s) i).
Proof. intros I. destruct I as [ <- | [ <- | [ <- | [ ] ] ] ]; split; reflexivity. Qed.

(** ** Types *)
Lemma type_parses t y : type_tree t = Ok y -> plain_type t = true -> ty_ok y = true.
Proof.
  revert y. induction t using ParamType_ind'; intros y E P; cbn [type_tree plain_type] in *; try discriminate; try (injection E as <-; reflexivity).
  - apply bind_ok in E as (z & Ez & E). injection E as <-. cbn [ty_ok forallb]. rewrite (IHt _ Ez P). reflexivity.
  - injection E as <-. destruct (n =? 32); reflexivity.
Qed.
Lemma types_parse A (k : A -> ParamType) l r : mapM (fun x => type_tree (k x)) l = Ok r -> forallb plain_type (map k l) = true -> forallb ty_ok r = true.
Proof.
  intros E P. apply mapM_ok in E. induction E as [ | a y l r E _ IH ]; [ reflexivity | ]. cbn [map forallb] in *. apply andb_true_iff in P as [ P1 P2 ]. rewrite (type_parses _ E P1), (IH P2). reflexivity.
Qed.
Lemma output_parses l y : output_tree l = Ok y -> forallb plain_type (map Function.p_kind l) = true -> ty_ok y = true.
Proof.
  intros E P. assert (M : forall ys, mapM (fun q => type_tree (Function.p_kind q)) l = Ok ys -> length ys = length l /\ forallb ty_ok ys = true).
  { intros ys Y. split; [ exact (mapM_length _ _ Y) | exact (types_parse _ _ Y P) ]. }
  unfold output_tree in E. destruct l as [ | a [ | b l ] ].
  - injection E as <-. reflexivity.
  - cbn [map forallb] in P. rewrite andb_true_r in P. exact (type_parses _ E P).
  - apply bind_ok in E as (ys & Ey & E). injection E as <-. destruct (M _ Ey) as [ L F ]. cbn [ty_ok]. rewrite F, andb_true_r. destruct ys as [ | ? [ | ? ? ] ]; try reflexivity. discriminate L.
Qed.
Lemma bound_parses t i gs : bound_tree t i = Ok gs -> argument_type t = true -> forallb generic_ok gs = true.
Proof.
  destruct (@numbered_name "T" i ltac:(cbn; tauto)) as [ T T' ]. destruct (@numbered_name "U" i ltac:(cbn; tauto)) as [ U U' ].
  intros E A. destruct t; cbn [bound_tree argument_type] in *; try discriminate.
  all: apply bind_ok in E as (y & Ey & E); injection E as <-; cbn [forallb generic_ok ty_ok path_ok]; rewrite (type_parses _ Ey A), ?T, ?U; try reflexivity.
Qed.
Lemma bounds_parse l gs : bounds_tree l = Ok gs -> forallb argument_type (map Function.p_kind l) = true -> forallb generic_ok gs = true.
Proof.
  unfold bounds_tree, mapi. intros E A. apply bind_ok in E as (r & Er & E). injection E as <-. revert r Er. generalize 0%nat. induction l as [ | x l IH ]; intros i r Er; cbn [mapi_from mapM] in Er; [ injection Er as <-; reflexivity | ].
  apply bind_ok in Er as (y & Ey & Er). apply bind_ok in Er as (ys & Eys & Er). injection Er as <-. cbn [map forallb] in A. apply andb_true_iff in A as [ A1 A2 ]. cbn [List.concat]. rewrite forallb_app, (bound_parses _ _ Ey A1), (IH A2 _ _ Eys). reflexivity.
Qed.
Lemma typed_parses names : Forall good names -> forallb typed_ok (typed names) = true.
Proof.
  unfold typed, mapi. generalize 0%nat. intros i H. revert i. induction H as [ | n names [ G _ ] _ IH ]; intros i; [ reflexivity | ]. cbn [mapi_from forallb]. rewrite IH. unfold typed_ok. cbn [fst snd ty_ok path_ok forallb]. rewrite G. reflexivity.
Qed.

(** ** Expressions *)
Lemma syntax_parses t e : syntax_tree t = Ok e -> expr_ok e = true.
Proof.
  revert e. induction t using ParamType_ind'; intros e E; cbn [syntax_tree] in *; try discriminate; try (injection E as <-; reflexivity).
  all: apply bind_ok in E as (z & Ez & E); injection E as <-; cbn [expr_ok forallb box_new]; rewrite (IHt _ Ez); reflexivity.
Qed.
Lemma all_parse A (f : A -> res expr) l r : (forall a e, f a = Ok e -> expr_ok e = true) -> mapM f l = Ok r -> forallb expr_ok r = true.
Proof. intros H E. apply mapM_ok in E. induction E as [ | a y l r E _ IH ]; [ reflexivity | ]. cbn [forallb]. rewrite (H _ _ E), IH. reflexivity. Qed.
Lemma params_parse l e : params_tree l = Ok e -> expr_ok e = true.
Proof.
  unfold params_tree. intros E. apply bind_ok in E as (r & Er & E). injection E as <-. cbn [expr_ok]. revert Er. apply all_parse. intros a e E. unfold param_tree in E. apply bind_ok in E as (k & Ek & E). injection E as <-.
  cbn [expr_ok forallb fst snd]. rewrite (syntax_parses _ Ek). reflexivity.
Qed.
Definition plainly_ok (e : expr) : Prop := expr_ok e = true /\ is_ref e = false.
Lemma method_parses e m : plainly_ok e -> is_name (lit m) = true -> plainly_ok (DeriveTree.method e m).
Proof. intros [ H R ] M. split; [ | reflexivity ]. cbn [expr_ok DeriveTree.method forallb]. rewrite H, R, M. reflexivity. Qed.
Lemma expecting_parses e : plainly_ok e -> plainly_ok (expecting e).
Proof. intros [ H R ]. split; [ | reflexivity ]. cbn [expr_ok expecting forallb]. rewrite H, R. reflexivity. Qed.
Lemma name_parses n : good n -> plainly_ok (EPath [n]).
Proof. intros [ N S ]. split; [ | reflexivity ]. cbn [expr_ok path_ok]. destruct n; [ discriminate | ]. cbn [forallb]. rewrite S. reflexivity. Qed.
Lemma map_into_parses e : plainly_ok e -> plainly_ok (map_into e).
Proof. intros [ H R ]. split; [ | reflexivity ]. cbn [expr_ok map_into forallb]. rewrite H, R. reflexivity. Qed.
Lemma collect_parses e : plainly_ok e -> plainly_ok (collect_vec e).
Proof. intros [ H R ]. split; [ | reflexivity ]. cbn [expr_ok collect_vec forallb]. rewrite H, R. reflexivity. Qed.
Lemma template_parses t n : good n -> plainly_ok (template_tree t n).
Proof.
  intros G. pose proof (name_parses G) as P. destruct t; cbn [template_tree]; try (apply method_parses; [ exact P | reflexivity ]).
  - apply collect_parses, map_into_parses, method_parses; [ exact P | reflexivity ].
  - apply collect_parses, map_into_parses, method_parses; [ | reflexivity ]. apply method_parses; [ | reflexivity ]. split; [ | reflexivity ]. cbn [expr_ok forallb box_new]. destruct (@method_parses _ "into" P eq_refl) as [ -> _ ]. reflexivity.
Qed.
Lemma map_parses e x b : plainly_ok e -> is_name (lit x) = true -> expr_ok b = true -> plainly_ok (EMap e (lit x) b).
Proof. intros [ H R ] X B. split; [ | reflexivity ]. cbn [expr_ok]. rewrite H, R, X, B. reflexivity. Qed.
Lemma to_token_parses t : forall e e', to_token_tree e t = Ok e' -> plainly_ok e -> expr_ok e' = true.
Proof.
  induction t using ParamType_ind'; intros e e' E P; cbn [to_token_tree] in *; try discriminate; try (injection E as <-; cbn [expr_ok forallb]; rewrite (proj1 P); reflexivity).
  - apply bind_ok in E as (z & Ez & E). injection E as <-. assert (Hz : expr_ok z = true) by (apply (IHt _ _ Ez); split; reflexivity). cbn [token_block expr_ok forallb fst snd binder_ok].
    destruct (@method_parses _ "collect" (@map_parses _ "inner" _ (@method_parses _ "into_iter" P eq_refl) eq_refl Hz) eq_refl) as [ -> _ ]. reflexivity.
  - injection E as <-. cbn [expr_ok forallb]. destruct (@method_parses _ "to_vec" (@method_parses _ "as_ref" P eq_refl) eq_refl) as [ -> _ ]. reflexivity.
  - apply bind_ok in E as (z & Ez & E). injection E as <-. assert (Hz : expr_ok z = true) by (apply (IHt _ _ Ez); split; reflexivity). cbn [token_block expr_ok forallb fst snd binder_ok].
    destruct (@method_parses _ "collect" (@map_parses _ "inner" _ (@method_parses _ "into_iter" P eq_refl) eq_refl Hz) eq_refl) as [ -> _ ]. reflexivity.
Qed.
Lemma copied_parses n e r : plainly_ok e -> expr_ok r = true -> opens r = false -> expr_ok (copied n e r) = true.
Proof.
  intros P R O. unfold copied. cbn [expr_ok forallb fst snd binder_ok]. destruct (expecting_parses (@method_parses _ "into_fixed_bytes" P eq_refl)) as [ -> _ ]. rewrite R, O. reflexivity.
Qed.
Lemma let_parses x a r : is_name x = true -> expr_ok a = true -> expr_ok r = true -> opens r = false -> expr_ok (EBlock [(Let x, a)] r) = true.
Proof. intros X A R O. cbn [expr_ok forallb fst snd binder_ok]. rewrite X, A, R, O. reflexivity. Qed.
Lemma from_token_parses t : forall e e', from_token_tree t e = Ok e' -> plainly_ok e -> expr_ok e' = true.
Proof.
  induction t using ParamType_ind'; intros e e' E P; cbn [from_token_tree] in *; try discriminate;
  try (injection E as <-; match goal with |- expr_ok (expecting (DeriveTree.method e ?m)) = true => exact (proj1 (expecting_parses (@method_parses _ m P eq_refl))) end).
  - apply bind_ok in E as (z & Ez & E). injection E as <-. assert (Hz : expr_ok z = true) by (apply (IHt _ _ Ez); split; reflexivity).
    exact (proj1 (@method_parses _ "collect" (@map_parses _ "inner" _ (@method_parses _ "into_iter" (expecting_parses (@method_parses _ "into_array" P eq_refl)) eq_refl) eq_refl Hz) eq_refl)).
  - injection E as <-. destruct (n =? 32); apply copied_parses; (exact P || reflexivity).
  - apply bind_ok in E as (z & Ez & E). injection E as <-. assert (Hz : expr_ok z = true) by (apply (IHt _ _ Ez); split; reflexivity).
    apply let_parses; [ reflexivity | exact (proj1 (@map_parses _ "inner" _ (@method_parses _ "into_iter" (expecting_parses (@method_parses _ "to_array" P eq_refl)) eq_refl) eq_refl Hz)) | | reflexivity ].
    cbn [expr_ok]. generalize (N.to_nat n). induction n0 as [ | k IH ]; [ reflexivity | exact IH ].
Qed.
Lemma tokenize_parses names l r : tokenize_tree names l = Ok r -> Forall good names -> forallb expr_ok r = true.
Proof.
  unfold tokenize_tree. intros E G. apply mapM_ok in E. assert (I : forall x, In x (combine names l) -> good (fst x)) by (intros [ n q ] I; rewrite Forall_forall in G; apply G; exact (in_combine_l _ _ _ _ I)).
  induction E as [ | x y xs r E _ IH ]; [ reflexivity | ]. cbn [forallb]. rewrite (@to_token_parses _ _ _ E (template_parses _ (I x (in_eq _ _)))). apply IH. intros z J. apply I. right. exact J.
Qed.
Lemma decoded_parses : plainly_ok decoded. Proof. split; reflexivity. Qed.
Lemma decode_parses l b : decode_tree l = Ok b -> forallb stmt_ok (fst b) = true /\ expr_ok (snd b) = true /\ opens (snd b) = false.
Proof.
  unfold decode_tree. intros E. destruct l as [ | x [ | y l ] ].
  - injection E as <-. repeat split.
  - apply bind_ok in E as (z & Ez & E). injection E as <-. cbn [fst snd expr_ok forallb]. rewrite (@from_token_parses _ _ _ Ez) by (split; reflexivity). repeat split.
  - apply bind_ok in E as (zs & Ez & E). injection E as <-. cbn [fst snd expr_ok forallb].
    rewrite (@all_parse _ _ _ _ (fun a e (H : from_token_tree (Function.p_kind a) (expecting (DeriveTree.method (name "out") "next")) = Ok e) => @from_token_parses _ _ _ H (conj eq_refl eq_refl)) Ez).
    assert (L : single zs = false) by (apply mapM_length in Ez; destruct zs as [ | ? [ | ? ? ] ]; try reflexivity; discriminate Ez). rewrite L. repeat split.
Qed.

(** ** Items *)
Lemma fn_parses doc pub x gs self ps t body r : is_name x = true -> match gs with None => true | Some l => forallb generic_ok l end = true -> forallb typed_ok ps = true -> ty_ok t = true ->
  forallb stmt_ok body = true -> expr_ok r = true -> opens r = false -> fn_ok (mkFn doc pub x gs self ps t body r) = true.
Proof. intros X G P T B R O. unfold fn_ok. cbn [fn_name fn_generics fn_params fn_ret fn_body fn_result]. rewrite X, G, P, T, B, R, O. reflexivity. Qed.
Lemma vec_stmt f x l : is_name x = true -> stmt_ok f = true -> forallb expr_ok l = true -> forallb stmt_ok [f; (Let x, EVec l)] = true.
Proof. intros X F H. cbn [forallb]. rewrite F. unfold stmt_ok. cbn [fst snd binder_ok expr_ok]. rewrite X, H. reflexivity. Qed.
Section Profile.
Context (p : profile).
Lemma function_parses f d i : derive_function p f = Ok d -> function_tree f = Ok i -> item_ok i = true.
Proof.
  intros D E. destruct (proj1 (@function_exact p f) (ex_intro _ d D)) as (A & P & (names' & N & U & _) & Um).
  unfold function_tree in E. apply bind_ok in E as (names & En & E). apply bind_ok in E as (bounds & Eb & E). apply bind_ok in E as (kinds & Ek & E). apply bind_ok in E as (tokenize & Et & E).
  apply bind_ok in E as (result & Er & E). apply bind_ok in E as (body & Eo & E). apply bind_ok in E as (inputs & Ei & E). apply bind_ok in E as (outputs & Eu & E). apply bind_ok in E as (m & Em & E).
  injection E as <-. apply ident_ok in Em as [ -> _ ].
  pose proof (proj2 (input_names_iff _ _) (conj N (proj1 (usable_split U)))) as En'. rewrite En in En'. injection En' as <-.
  pose proof (good_names parameter_start N U) as G. pose proof (@tokenize_parses _ _ _ Et G) as T. pose proof (@bounds_parse _ _ Eb A) as B. pose proof (@output_parses _ _ Er P) as R. destruct (@decode_parses _ _ Eo) as (B1 & B2 & B3).
  cbn [item_ok uses app forallb]. rewrite (usable_name Um (@snake_start _ [])). rewrite R.
  assert (F1 : fn_ok (fn_function f inputs outputs) = true).
  { apply fn_parses; try reflexivity. cbn [expr_ok forallb fst snd]. rewrite (@params_parse _ _ Ei), (@params_parse _ _ Eu). destruct (f_state_mutability f); reflexivity. }
  assert (F2 : fn_ok (fn_decode body) = true) by (apply fn_parses; (assumption || reflexivity)).
  assert (Ft : forallb typed_ok (typed names) = true) by (apply typed_parses; exact G).
  assert (F3 : fn_ok (fn_encode_input bounds names tokenize) = true) by (apply fn_parses; try (assumption || reflexivity); apply vec_stmt; (assumption || reflexivity)).
  assert (F4 : fn_ok (fn_decode_output result) = true) by (apply fn_parses; try reflexivity; cbn [ty_ok forallb]; rewrite R; reflexivity).
  assert (F5 : fn_ok (fn_call bounds names tokenize) = true) by (apply fn_parses; try (assumption || reflexivity); apply vec_stmt; (assumption || reflexivity)).
  rewrite F1, F2, F3, F4, F5. reflexivity.
Qed.
Lemma constructor_parses k d i : derive_constructor p k = Ok d -> constructor_tree k = Ok i -> item_ok i = true.
Proof.
  intros D E. destruct (proj1 (@constructor_exact p k) (ex_intro _ d D)) as (A & names' & N & U & _). destruct (constructor_inv _ E) as (bounds & names & inputs & tokenize & -> & En & Eb & Et & Ei & _).
  pose proof (proj2 (input_names_iff _ _) (conj N (proj1 (usable_split U)))) as En'. rewrite En in En'. injection En' as <-.
  pose proof (good_names parameter_start N U) as G. cbn [item_ok]. apply fn_parses; try reflexivity.
  - exact (@bounds_parse _ _ Eb A).
  - cbn [forallb]. rewrite (typed_parses G). reflexivity.
  - apply vec_stmt; [ reflexivity | | exact (@tokenize_parses _ _ _ Et G) ]. unfold stmt_ok. cbn [fst snd binder_ok expr_ok forallb]. rewrite (@params_parse _ _ Ei). reflexivity.
Qed.
Lemma topics_parse l : forallb ty_ok l = true -> forallb generic_ok (topic_bounds l) = true.
Proof.
  unfold topic_bounds, mapi. generalize 0%nat. induction l as [ | t l IH ]; intros i H; [ reflexivity | ]. cbn [forallb mapi_from] in *. apply andb_true_iff in H as [ T H ]. rewrite (IH _ H). cbn [generic_ok ty_ok forallb]. rewrite T.
  rewrite (proj1 (@numbered_name "T" i ltac:(cbn; tauto))). reflexivity.
Qed.
Lemma init_parses topics init : filter_init_tree topics = Ok init -> Forall (fun x => good (fst x)) topics -> forallb (fun x : str * expr => is_name (fst x) && expr_ok (snd x)) init = true.
Proof.
  unfold filter_init_tree, mapi. generalize 0%nat. intros i E G. revert i init E. induction G as [ | [ n q ] topics Gn _ IH ]; intros i init E; cbn [mapi_from mapM] in E; [ injection E as <-; reflexivity | ].
  apply bind_ok in E as (y & Ey & E). apply bind_ok in E as (ys & Eys & E). injection E as <-. cbn [fst snd] in *. apply bind_ok in Ey as (t & Et & Ey). injection Ey as <-. cbn [forallb fst snd].
  rewrite (IH _ _ Eys), (proj1 (@numbered_name "topic" i ltac:(cbn; tauto))). destruct (@map_parses _ "i" _ (@method_parses _ "into" (name_parses Gn) eq_refl) eq_refl (@to_token_parses _ _ _ Et (conj eq_refl eq_refl))) as [ -> _ ]. reflexivity.
Qed.
Lemma fields_parse names es : Forall good names -> forallb expr_ok es = true -> forallb (fun x : str * expr => is_name (fst x) && expr_ok (snd x)) (combine names es) = true.
Proof.
  intros G. revert es. induction G as [ | n names [ Gn _ ] _ IH ]; intros es H; [ reflexivity | ]. destruct es as [ | e es ]; [ reflexivity | ]. cbn [combine forallb fst snd] in *. apply andb_true_iff in H as [ H1 H2 ]. rewrite Gn, H1, (IH _ H2). reflexivity.
Qed.
Lemma typeds_parse names ts : Forall good names -> forallb ty_ok ts = true -> forallb typed_ok (combine names ts) = true.
Proof.
  intros G. revert ts. induction G as [ | n names [ Gn _ ] _ IH ]; intros es H; [ reflexivity | ]. destruct es as [ | e es ]; [ reflexivity | ]. cbn [combine forallb] in *. apply andb_true_iff in H as [ H1 H2 ]. unfold typed_ok at 1. cbn [fst snd].
  rewrite Gn, H1, (IH _ H2). reflexivity.
Qed.
Lemma Forall_firstn A (P : A -> Prop) l : Forall P l -> forall n, Forall P (firstn n l).
Proof. induction 1; intros [ | n ]; cbn [firstn]; constructor; auto. Qed.
Lemma event_parses e d i : derive_event p e = Ok d -> event_tree e = Ok i -> item_ok i = true.
Proof.
  intros D E. destruct (proj1 (@event_exact p e) (ex_intro _ d D)) as (P & (names' & N & U & _) & Um & Uc).
  unfold event_tree in E. apply bind_ok in E as (names & En & E). apply bind_ok in E as (to_log & El & E). apply bind_ok in E as (kinds & Ek & E). apply bind_ok in E as (init & Ef & E). apply bind_ok in E as (inputs & Ei & E).
  apply bind_ok in E as (m & Em & E). apply bind_ok in E as (camel & Ec & E). injection E as <-. apply ident_ok in Em as [ -> _ ], Ec as [ -> _ ].
  pose proof (proj2 (field_names_iff _ _) (conj N (proj1 (usable_split U)))) as En'. rewrite En in En'. injection En' as <-.
  pose proof (good_names field_start N U) as G.
  assert (Gt : Forall good (topic_names (e_inputs e) names)).
  { apply Forall_forall. intros n I. unfold topic_names in I. apply in_map_iff in I as ([ q n' ] & <- & I). apply filter_In in I as [ I _ ]. rewrite Forall_forall in G. apply G. exact (in_combine_r _ _ _ _ I). }
  assert (Pk : forallb plain_type (map ep_kind (filter ep_indexed (e_inputs e))) = true).
  { rewrite forallb_forall in *. intros t I. apply P. apply in_map_iff in I as (q & <- & I). apply in_map. now apply filter_In in I. }
  pose proof (@types_parse _ _ _ _ Ek Pk) as K. pose proof (usable_name Uc (@camel_start _ [])) as Cn. pose proof (usable_segment Uc (@camel_start _ [])) as Cs.
  assert (Lp : path_ok (log_path (to_camel_case (e_name e))) = true) by (cbn [log_path segments map app path_ok forallb]; rewrite Cs; reflexivity).
  cbn [item_ok uses app forallb]. rewrite (usable_name Um (@snake_start _ [])).
  assert (F1 : fn_ok (fn_event e inputs) = true).
  { apply fn_parses; try reflexivity. cbn [expr_ok forallb fst snd]. replace (forallb expr_ok inputs) with true; [ reflexivity | ]. symmetry. revert Ei. apply all_parse. intros q x X. unfold event_param_tree in X. apply bind_ok in X as (k & Xk & X).
    injection X as <-. cbn [expr_ok forallb fst snd]. rewrite (@syntax_parses _ _ Xk). reflexivity. }
  assert (F2 : fn_ok (fn_filter (topic_bounds kinds) (topic_names (e_inputs e) names) init) = true).
  { apply fn_parses; try reflexivity; [ apply topics_parse; exact K | apply typed_parses; exact Gt | ]. cbn [forallb]. unfold stmt_ok. cbn [fst snd binder_ok expr_ok].
    rewrite (@init_parses _ _ Ef); [ reflexivity | ]. apply Forall_firstn. apply Forall_forall. intros [ n q ] I. rewrite Forall_forall in Gt. apply Gt. exact (in_combine_l _ _ _ _ I). }
  assert (F3 : fn_ok (fn_wildcard_filter (topic_names (e_inputs e) names)) = true).
  { apply fn_parses; try reflexivity. cbn [expr_ok]. clear. induction (topic_names (e_inputs e) names) as [ | n l IH ]; [ reflexivity | exact IH ]. }
  assert (F4 : fn_ok (fn_parse_log (to_camel_case (e_name e)) (combine names to_log)) = true).
  { apply fn_parses; try reflexivity.
    - cbn [ty_ok forallb]. rewrite Lp. reflexivity.
    - cbn [forallb]. unfold stmt_ok. cbn [fst snd binder_ok]. change (expr_ok (EStruct (log_path (to_camel_case (e_name e))) (combine names to_log))) with (path_ok (log_path (to_camel_case (e_name e))) && forallb (fun x : str * expr => is_name (fst x) && expr_ok (snd x)) (combine names to_log)).
      rewrite Lp, fields_parse; [ reflexivity | exact G | ]. revert El. apply all_parse. intros q x X. apply (@from_token_parses _ _ _ X). split; reflexivity. }
  rewrite F1, F2, F3, F4. reflexivity.
Qed.
Lemma log_parses e d i : derive_event p e = Ok d -> log_tree e = Ok i -> item_ok i = true.
Proof.
  intros D E. destruct (proj1 (@event_exact p e) (ex_intro _ d D)) as (P & (names' & N & U & _) & Um & Uc).
  unfold log_tree in E. apply bind_ok in E as (names & En & E). apply bind_ok in E as (kinds & Ek & E). apply bind_ok in E as (camel & Ec & E). injection E as <-. apply ident_ok in Ec as [ -> _ ].
  pose proof (proj2 (field_names_iff _ _) (conj N (proj1 (usable_split U)))) as En'. rewrite En in En'. injection En' as <-.
  cbn [item_ok]. rewrite (usable_name Uc (@camel_start _ [])), (@typeds_parse _ _ (good_names field_start N U) (@types_parse _ _ _ _ Ek P)). reflexivity.
Qed.
Lemma each_parses A (t : A -> res item) (P : A -> Prop) l is : (forall a i, P a -> t a = Ok i -> item_ok i = true) -> mapM t l = Ok is -> Forall P l -> forallb item_ok is = true.
Proof. intros H E F. apply mapM_ok in E. induction E as [ | a i l is E _ IH ]; [ reflexivity | ]. inversion F; subst. cbn [forallb]. rewrite (H a i) by assumption. auto. Qed.
Lemma contract_parses c fs es d items : derive_contract p c fs es = Ok d -> contract_tree c fs es = Ok items -> forallb item_ok items = true.
Proof.
  intros D E. pose proof (proj1 (@contract_exact p c fs es) (ex_intro _ d D)) as (Kc & F & V & _).
  unfold contract_tree in E. apply bind_ok in E as (k & Ek & E). apply bind_ok in E as (fi & Ef & E). apply bind_ok in E as (ei & Ee & E). apply bind_ok in E as (li & El & E). injection E as <-.
  assert (K : forallb item_ok k = true).
  { destruct (c_constructor c) as [ x | ]; [ | injection Ek as <-; reflexivity ]. apply bind_ok in Ek as (i & Ei & Ek). injection Ek as <-. destruct (Kc x eq_refl) as [ dx Dx ]. cbn [forallb]. rewrite (@constructor_parses _ _ _ Dx Ei). reflexivity. }
  cbn [app forallb]. rewrite forallb_app, K. cbn [forallb item_ok].
  rewrite (@each_parses _ _ _ _ _ (fun f i '(ex_intro _ df Df) T => @function_parses f df i Df T) Ef F), (@each_parses _ _ _ _ _ (fun f i '(ex_intro _ df Df) T => @event_parses f df i Df T) Ee V),
    (@each_parses _ _ _ _ _ (fun f i '(ex_intro _ df Df) T => @log_parses f df i Df T) El V). reflexivity.
Qed.
Lemma text_parses c fs es d text : derive_contract p c fs es = Ok d -> contract_text c fs es = Ok text -> exists items, contract_tree c fs es = Ok items /\ parse text = Some items.
Proof.
  intros D T. rewrite contract_ok in T. destruct (contract_tree c fs es) as [ items | | ] eqn:E; try discriminate. injection T as <-. exists items. split; [ reflexivity | ]. apply parse_reads. exact (@contract_parses _ _ _ _ _ D E).
Qed.
Lemma generated_parses c fs es d : derive_contract p c fs es = Ok d ->
  exists text items, contract_text c fs es = Ok text /\ parse text = Some items /\ contract_code p d items.
Proof.
  intros D. destruct (@contract_generated _ _ _ _ _ D) as (items & T & X & C). exists (wr_items items), items. split; [ exact X | ]. split; [ | exact C ]. apply parse_reads. exact (@contract_parses _ _ _ _ _ D T).
Qed.
End Profile.
