(** * Facts about the command line program *)
From Verif Require Import Base BaseFacts StrFacts Types AbiSpec TypeNames TypeNamesSpec TypeNamesFacts Encoder Decoder DecoderSpec DecoderProps Keccak Function FunctionFacts Tokenizer TokenSpec
  TokenFacts TokenTotal Event EventSpec EventFacts Json JsonSpec JsonFacts ItemFacts LoadFacts Contract ContractSpec ContractFacts JsonLemmas Cli CliSpec.
From Coq Require Import String Lia ZifyBool ZifyNat ZifyN.
Set Implicit Arguments.
Local Open Scope N_scope.
Local Open Scope list_scope.
Local Opaque keccak256.
Notation length := List.length.

(** ** Finding *)
Lemma find_first_such A (P : A -> Prop) (f : A -> bool) l x : (forall y, f y = true <-> P y) ->
  (find f l = Some x <-> first_such P l x).
Proof.
  intros H. induction l as [|y l IH]; cbn [find].
  - split; [discriminate|]. intros ([|] & l2 & E & _); discriminate.
  - destruct (f y) eqn:F.
    + split; [intros E; injection E as <-; exists [], l; repeat split; [now apply H|constructor]|].
      intros ([|z l1] & l2 & E & Px & N); cbn [app] in E; [congruence|]. injection E as <- _. inversion_clear N. apply H in F. contradiction.
    + rewrite IH. split.
      * intros (l1 & l2 & -> & Px & N). exists (y :: l1), l2. repeat split; auto. constructor; [|assumption]. rewrite <- H. congruence.
      * intros ([|z l1] & l2 & E & Px & N); cbn [app] in E.
        { injection E as -> ->. apply H in Px. congruence. }
        injection E as <- ->. inversion_clear N. exists l1, l2. auto.
Qed.
Lemma find_none_such A (P : A -> Prop) (f : A -> bool) l : (forall y, f y = true <-> P y) ->
  (find f l = None <-> forall x, In x l -> ~ P x).
Proof.
  intros H. split.
  - intros E x I Px. apply H in Px. rewrite (List.find_none _ _ E _ I) in Px. discriminate.
  - intros N. destruct (find f l) as [x|] eqn:E; [|reflexivity]. apply find_some in E as [I F]. apply H in F. now apply N in F.
Qed.
Lemma filter_nil_such A (P : A -> Prop) (f : A -> bool) l : (forall y, f y = true <-> P y) ->
  (filter f l = [] <-> Forall (fun y => ~ P y) l).
Proof.
  intros H. induction l as [|y l IH]; cbn [filter]; [split; auto|]. destruct (f y) eqn:F.
  - split; [discriminate|]. inversion_clear 1. apply H in F. contradiction.
  - rewrite IH. split; [constructor; [rewrite <- H; congruence|assumption]|now inversion 1].
Qed.
Lemma filter_only_such A (P : A -> Prop) (f : A -> bool) l x : (forall y, f y = true <-> P y) ->
  (filter f l = [x] <-> only_such P l x).
Proof.
  intros H. induction l as [|y l IH]; cbn [filter].
  - split; [discriminate|]. intros ([|] & l2 & E & _); discriminate.
  - destruct (f y) eqn:F.
    + split.
      * intros E. injection E as <- E. apply (@filter_nil_such A P f _ H) in E. exists [], l. repeat split; [now apply H|assumption].
      * intros ([|z l1] & l2 & E & Px & N); cbn [app] in E; injection E as <- ->.
        { f_equal. now apply (@filter_nil_such A P f _ H). }
        inversion_clear N. apply H in F. contradiction.
    + rewrite IH. split.
      * intros (l1 & l2 & -> & Px & N). exists (y :: l1), l2. repeat split; auto. constructor; [rewrite <- H; congruence|assumption].
      * intros ([|z l1] & l2 & E & Px & N); cbn [app] in E.
        { injection E as -> ->. apply H in Px. congruence. }
        injection E as <- ->. inversion_clear N. exists l1, l2. auto.
Qed.
Lemma find_filter A (f g : A -> bool) l : (forall x, In x l -> g x = true -> f x = true) -> find g (filter f l) = find g l.
Proof.
  induction l as [|x l IH]; intros H; [reflexivity|]. cbn [filter find].
  specialize (IH (fun y I => H y (or_intror I))). pose proof (H x (or_introl eq_refl)) as Hx.
  destruct (f x) eqn:F; cbn [find]; destruct (g x) eqn:G; auto. now specialize (Hx eq_refl).
Qed.
Lemma find_filter_and A (f g : A -> bool) l : find g (filter f l) = find (fun x => f x && g x) l.
Proof.
  induction l as [|x l IH]; [reflexivity|]. cbn [filter find]. destruct (f x); cbn [find andb]; [|exact IH]. now rewrite IH.
Qed.

Lemma filter_cons_split A (f : A -> bool) l x r : filter f l = x :: r -> exists l1 l2, l = l1 ++ x :: l2 /\ f x = true /\ filter f l2 = r.
Proof.
  induction l as [|y l IH]; [discriminate|]. cbn [filter]. destruct (f y) eqn:F.
  - intros E. injection E as <- E. exists [], l. auto.
  - intros E. apply IH in E as (l1 & l2 & -> & Hx & E). exists (y :: l1), l2. auto.
Qed.
Lemma Forall2_in_r A B (R : A -> B -> Prop) l l' y : Forall2 R l l' -> In y l' -> exists x, In x l /\ R x y.
Proof. induction 1 as [|a b l l' H F IH]; [intros []|]. intros [<-|I]; [exists a; cbn; auto|]. destruct (IH I) as (x & Ix & Rx). exists x. cbn. auto. Qed.

Lemma two_named A (name : A -> str) n l : (exists x y r, filter (fun g => str_eqb (name g) n) l = x :: y :: r) <->
  exists l1 l2 l3 g1 g2, l = l1 ++ g1 :: l2 ++ g2 :: l3 /\ name g1 = n /\ name g2 = n.
Proof.
  split.
  - intros (x & y & r & E). destruct (filter_cons_split _ _ E) as (l1 & r' & -> & Hx & E2). destruct (filter_cons_split _ _ E2) as (l2 & l3 & -> & Hy & _).
    apply str_eqb_eq in Hx, Hy. exists l1, l2, l3, x, y. auto.
  - intros (l1 & l2 & l3 & x & y & -> & Hx & Hy). apply str_eqb_eq in Hx, Hy. rewrite filter_app. cbn [filter]. rewrite Hx, filter_app. cbn [filter]. rewrite Hy.
    destruct (filter _ l1) as [|a [|b m]]; cbn [app]; [|do 3 eexists; reflexivity..].
    destruct (filter _ l2); cbn [app]; do 3 eexists; reflexivity.
Qed.

(** ** Signatures *)
Lemma full_signature_iff f s : full_signature f s <-> signature f = s.
Proof.
  rewrite signature_eq. unfold full_signature, input_param_types, output_param_types. split.
  - intros (a & Ca & [[O ->]|(O & b & Cb & ->)]); apply canonical_iff in Ca; subst a; change (lit "(") with [40]; change (lit ")") with [41].
    + rewrite O. reflexivity.
    + apply canonical_iff in Cb. subst b. change (lit "(") with [40]; change (lit ")") with [41]; change (lit ":") with [58].
      destruct (f_outputs f); [congruence|]. cbn [app]. rewrite <- !app_assoc. cbn [app]. rewrite <- !app_assoc. reflexivity.
  - intros <-. eexists. split; [apply canonical_iff; reflexivity|]. change (lit "(") with [40]; change (lit ")") with [41].
    destruct (f_outputs f) as [|o os] eqn:O; [left; auto|]. right. split; [discriminate|]. eexists. split; [apply canonical_iff; reflexivity|].
    change (lit "(") with [40]; change (lit ")") with [41]; change (lit ":") with [58]. cbn [app]. rewrite <- !app_assoc. cbn [app]. rewrite <- !app_assoc. reflexivity.
Qed.
Lemma hash_signature_ok s : hash_signature s = Ok (keccak256 (utf8 (unspaced s))).
Proof.
  unfold hash_signature, unspaced, copy_from_slice. rewrite (proj2 (N.eqb_eq _ _)); [reflexivity|]. unfold len. now rewrite keccak_length.
Qed.

(** ** Loading *)
Section Load.
Context (p : profile) (files : str -> option json).
Lemma open_file path ops : abi_file files path ops -> exists c, open_contract p files path = Ok c /\
  (forall n, functions_by_name c n = match filter (fun f => str_eqb (f_name f) n) (functions_of ops) with [] => Err (InvalidName n) | r => Ok r end) /\
  (forall n, events_by_name c n = match filter (fun e => str_eqb (e_name e) n) (events_of ops) with [] => Err (InvalidName n) | r => Ok r end).
Proof.
  intros (j & F & C & W & D). destruct (standard_loads p C W D) as (c & L & H1 & H2 & _). exists c. unfold open_contract. rewrite F. auto.
Qed.
Lemma file_plain path ops : abi_file files path ops ->
  Forall (fun f => plain_name (f_name f) = true) (functions_of ops) /\ Forall (fun e => plain_name (e_name e) = true) (events_of ops).
Proof.
  intros (j & _ & (items & -> & C) & _ & _). split; rewrite Forall_forall; [intros f I; apply functions_in in I|intros e I; apply events_in in I];
    destruct (@Forall2_in_r _ _ _ _ _ _ C I) as (x & _ & l & _ & IJ); apply item_plain in IJ; exact IJ.
Qed.
Lemma before_slice s s0 rest : s = s0 ++ 40 :: rest -> plain_name s0 = true ->
  str_find s 40 = Some (str_len s0) /\ str_slice s 0 (str_len s0) = Ok s0.
Proof.
  intros -> P. apply plain_not_in in P. rewrite find_first by exact P. split; [reflexivity|]. exact (str_slice_app [] s0 (40 :: rest)).
Qed.
Lemma name_split s : plain_name s = false -> exists s0 rest, s = s0 ++ 40 :: rest /\ plain_name s0 = true.
Proof.
  intros P. destruct (first_paren s) as [(a & b & -> & H)|H]; [|apply plain_not_in in H; congruence].
  exists a, b. split; [reflexivity|]. now apply plain_not_in.
Qed.
Lemma named_iff A (name : A -> str) n y : str_eqb (name y) n = true <-> name y = n.
Proof. apply str_eqb_eq. Qed.

Lemma load_function_name path ops n f : abi_file files path ops -> plain_name n = true ->
  (load_function p files path n = Ok f <-> only_such (fun g => f_name g = n) (functions_of ops) f).
Proof.
  intros F P. destruct (open_file F) as (c & O & HF & _). unfold load_function. rewrite O. cbn [bind].
  rewrite (proj2 (ItemFacts.find_none n 40)) by now apply plain_not_in.
  rewrite HF, <- (@filter_only_such _ (fun g => f_name g = n) (fun g => str_eqb (f_name g) n)) by (intros; apply str_eqb_eq).
  destruct (filter _ (functions_of ops)) as [|x [|y l]]; cbn [bind]; split; congruence.
Qed.
Lemma load_function_name_error path ops n : abi_file files path ops -> plain_name n = true ->
  (load_function p files path n = Err (InvalidName n) <-> forall g, In g (functions_of ops) -> f_name g <> n) /\
  (load_function p files path n = Err (OtherErr (lit "More than one function found for name `" ++ n ++ lit "`, try providing the full signature")) <->
   exists l1 l2 l3 g1 g2, functions_of ops = l1 ++ g1 :: l2 ++ g2 :: l3 /\ f_name g1 = n /\ f_name g2 = n).
Proof.
  intros F P. destruct (open_file F) as (c & O & HF & _). unfold load_function. rewrite O. cbn [bind].
  rewrite (proj2 (ItemFacts.find_none n 40)) by now apply plain_not_in. rewrite HF.
  pose proof (@filter_nil_such _ (fun g => f_name g = n) (fun g => str_eqb (f_name g) n) (functions_of ops) (fun y => str_eqb_eq _ _)) as HN.
  rewrite <- (two_named f_name), <- Forall_forall, <- HN. clear. destruct (filter _ (functions_of ops)) as [|x [|y l]]; cbn [bind].
  - split; [split; auto|]. split; [congruence|intros (? & ? & ? & ?); discriminate].
  - split; [split; discriminate|]. split; [discriminate|intros (? & ? & ? & ?); discriminate].
  - split; [split; discriminate|]. split; [eauto|reflexivity].
Qed.
Lemma load_function_signature path ops s f : abi_file files path ops -> plain_name s = false ->
  (load_function p files path s = Ok f <-> first_such (fun g => full_signature g s) (functions_of ops) f).
Proof.
  intros F P. destruct (open_file F) as (c & O & HF & _). destruct (file_plain F) as [PL _].
  destruct (name_split _ P) as (s0 & rest & -> & P0). destruct (@before_slice (s0 ++ 40 :: rest) s0 rest eq_refl P0) as [B1 B2].
  unfold load_function. rewrite O. cbn [bind]. rewrite B1, B2. cbn [bind]. rewrite HF.
  rewrite <- (@find_first_such _ (fun g => full_signature g (s0 ++ 40 :: rest)) (fun g => str_eqb (signature g) (s0 ++ 40 :: rest))) by (intros; rewrite full_signature_iff; apply str_eqb_eq).
  rewrite <- (find_filter (fun g => str_eqb (f_name g) s0)).
  - destruct (filter _ (functions_of ops)) as [|x l]; cbn [bind]; [cbn [find]; split; discriminate|].
    destruct (find _ (x :: l)); split; congruence.
  - intros g I G. apply str_eqb_eq in G. apply str_eqb_eq. rewrite signature_eq in G. rewrite Forall_forall in PL.
    destruct (until_paren _ _ _ _ (PL _ I) P0 G) as [E _]. exact E.
Qed.
Lemma load_function_absent path ops s0 rest : abi_file files path ops -> plain_name s0 = true -> let s := s0 ++ 40 :: rest in
  (load_function p files path s = Err (InvalidName s0) <-> forall g, In g (functions_of ops) -> f_name g <> s0) /\
  (load_function p files path s = Err (OtherErr (lit "invalid function signature `" ++ s ++ lit "`")) <->
   (exists g, In g (functions_of ops) /\ f_name g = s0) /\ forall g, In g (functions_of ops) -> ~ full_signature g s).
Proof.
  intros F P0. cbv zeta. destruct (open_file F) as (c & O & HF & _). destruct (@before_slice (s0 ++ 40 :: rest) s0 rest eq_refl P0) as [B1 B2].
  destruct (file_plain F) as [PL _]. rewrite Forall_forall in PL.
  unfold load_function. rewrite O. cbn [bind]. rewrite B1, B2. cbn [bind]. rewrite HF.
  pose proof (@filter_nil_such _ (fun g => f_name g = s0) (fun g => str_eqb (f_name g) s0) (functions_of ops) (fun y => str_eqb_eq _ _)) as HN.
  rewrite Forall_forall in HN. rewrite <- HN.
  pose proof (find_filter (fun g => str_eqb (f_name g) s0) (fun g => str_eqb (signature g) (s0 ++ 40 :: rest)) (functions_of ops)) as FF.
  assert (X : forall g, In g (functions_of ops) -> str_eqb (signature g) (s0 ++ 40 :: rest) = true -> str_eqb (f_name g) s0 = true).
  { intros g I G. apply str_eqb_eq in G. apply str_eqb_eq. rewrite signature_eq in G. destruct (until_paren _ _ _ _ (PL _ I) P0 G) as [E _]. exact E. }
  specialize (FF X). clear X. destruct (filter (fun g => str_eqb (f_name g) s0) (functions_of ops)) as [|x l] eqn:E; cbn [bind].
  - split; [tauto|]. split; [discriminate|]. intros [(g & I & G) _]. destruct (proj1 HN eq_refl g I G).
  - assert (N : exists g, In g (functions_of ops) /\ f_name g = s0).
    { exists x. assert (I : In x (x :: l)) by now left. rewrite <- E in I. apply filter_In in I as [I G]. apply str_eqb_eq in G. auto. }
    split; [split; [|discriminate]; destruct (find _ (x :: l)); discriminate|]. rewrite FF. destruct (find _ (functions_of ops)) as [f|] eqn:E1.
    + split; [discriminate|]. intros [_ H]. apply find_some in E1 as [I G]. destruct (H f I). apply full_signature_iff. now apply str_eqb_eq.
    + split; [|reflexivity]. intros _. split; [exact N|]. intros g I G. apply full_signature_iff in G. pose proof (List.find_none _ _ E1 _ I) as H. cbv beta in H.
      apply str_eqb_eq in G. congruence.
Qed.

(** *** Events *)
Lemma findM_find A (test : A -> res bool) (f : A -> bool) l : (forall x, test x = Ok (f x)) -> findM test l = Ok (find f l).
Proof. intros H. induction l as [|x l IH]; [reflexivity|]. cbn [findM find]. rewrite H. cbn [bind]. destruct (f x); [reflexivity|exact IH]. Qed.
Definition hash_of (e : Event) : list byte := match event_signature e with Ok h => h | _ => [] end.
Lemma hash_of_canonical e s : event_canonical e s -> event_signature e = Ok (keccak256 (utf8 s)) /\ hash_of e = keccak256 (utf8 s).
Proof.
  intros C. assert (E : event_signature e = Ok (keccak256 (utf8 s))) by exact (long_signature_ok C). split; [exact E|]. unfold hash_of. now rewrite E.
Qed.
Lemma hash_of_ok e : event_signature e = Ok (hash_of e).
Proof.
  destruct (canonical_exists (e_name e) (map ep_kind (e_inputs e))) as [s C]. destruct (@hash_of_canonical e s C) as [E H]. now rewrite E, H.
Qed.
Lemma event_hash_iff e h : event_hash e h <-> hash_of e = h.
Proof.
  split.
  - intros (s & C & ->). exact (proj2 (hash_of_canonical C)).
  - intros <-. destruct (canonical_exists (e_name e) (map ep_kind (e_inputs e))) as [s C]. exists s. split; [exact C|]. exact (proj2 (@hash_of_canonical e s C)).
Qed.
Lemma load_event_name path ops n e : abi_file files path ops -> plain_name n = true ->
  (load_event p files path n = Ok e <-> only_such (fun g => e_name g = n) (events_of ops) e).
Proof.
  intros F P. destruct (open_file F) as (c & O & _ & HF). unfold load_event. rewrite O. cbn [bind].
  rewrite (proj2 (ItemFacts.find_none n 40)) by now apply plain_not_in.
  rewrite HF, <- (@filter_only_such _ (fun g => e_name g = n) (fun g => str_eqb (e_name g) n)) by (intros; apply str_eqb_eq).
  destruct (filter _ (events_of ops)) as [|x [|y l]]; cbn [bind]; split; congruence.
Qed.
Lemma load_event_name_error path ops n : abi_file files path ops -> plain_name n = true ->
  (load_event p files path n = Err (InvalidName n) <-> forall g, In g (events_of ops) -> e_name g <> n) /\
  (load_event p files path n = Err (OtherErr (lit "More than one function found for name `" ++ n ++ lit "`, try providing the full signature")) <->
   exists l1 l2 l3 g1 g2, events_of ops = l1 ++ g1 :: l2 ++ g2 :: l3 /\ e_name g1 = n /\ e_name g2 = n).
Proof.
  intros F P. destruct (open_file F) as (c & O & _ & HF). unfold load_event. rewrite O. cbn [bind].
  rewrite (proj2 (ItemFacts.find_none n 40)) by now apply plain_not_in. rewrite HF.
  pose proof (@filter_nil_such _ (fun g => e_name g = n) (fun g => str_eqb (e_name g) n) (events_of ops) (fun y => str_eqb_eq _ _)) as HN.
  rewrite <- (two_named e_name), <- Forall_forall, <- HN. clear. destruct (filter _ (events_of ops)) as [|x [|y l]]; cbn [bind].
  - split; [split; auto|]. split; [congruence|intros (? & ? & ? & ?); discriminate].
  - split; [split; discriminate|]. split; [discriminate|intros (? & ? & ? & ?); discriminate].
  - split; [split; discriminate|]. split; [eauto|reflexivity].
Qed.
Lemma load_event_eq path ops s0 rest : abi_file files path ops -> plain_name s0 = true ->
  let h := keccak256 (utf8 (unspaced (s0 ++ 40 :: rest))) in
  load_event p files path (s0 ++ 40 :: rest) =
  match find (fun e => str_eqb (e_name e) s0 && bytes_eqb (hash_of e) h) (events_of ops) with
  | Some e => Ok e
  | None => Err (match filter (fun e => str_eqb (e_name e) s0) (events_of ops) with
                 | [] => InvalidName s0
                 | _ => OtherErr (lit "Invalid signature `" ++ display_hash h ++ lit "`")
                 end)
  end.
Proof.
  intros F P0. cbv zeta. destruct (open_file F) as (c & O & _ & HF). destruct (@before_slice (s0 ++ 40 :: rest) s0 rest eq_refl P0) as [B1 B2].
  unfold load_event. rewrite O. cbn [bind]. rewrite B1, B2. cbn [bind]. rewrite hash_signature_ok. cbn [bind]. rewrite HF.
  rewrite <- find_filter_and.
  destruct (filter _ (events_of ops)) as [|x l]; cbn [bind]; [reflexivity|].
  rewrite (@findM_find _ _ (fun e => bytes_eqb (hash_of e) (keccak256 (utf8 (unspaced (s0 ++ 40 :: rest)))))) by (intros y; rewrite hash_of_ok; reflexivity).
  cbn [bind]. destruct (find _ (x :: l)); reflexivity.
Qed.
Lemma load_event_absent path ops s0 rest : abi_file files path ops -> plain_name s0 = true ->
  let s := s0 ++ 40 :: rest in let h := keccak256 (utf8 (unspaced s)) in
  (load_event p files path s = Err (InvalidName s0) <-> forall g, In g (events_of ops) -> e_name g <> s0) /\
  (load_event p files path s = Err (OtherErr (lit "Invalid signature `0x" ++ hex_encode (firstn 2 h) ++ [8230] ++ hex_encode (skipn 30 h) ++ lit "`")) <->
   (exists g, In g (events_of ops) /\ e_name g = s0) /\ forall g, In g (events_of ops) -> e_name g = s0 -> ~ event_hash g h).
Proof.
  intros F P0. cbv zeta. rewrite (@load_event_eq path ops s0 rest F P0). cbv zeta. set (h := keccak256 _).
  replace (lit "Invalid signature `" ++ display_hash h ++ lit "`")
    with (lit "Invalid signature `0x" ++ hex_encode (firstn 2 h) ++ [8230] ++ hex_encode (skipn 30 h) ++ lit "`").
  2:{ unfold display_hash. rewrite <- !app_assoc. reflexivity. }
  pose proof (@filter_nil_such _ (fun g => e_name g = s0) (fun g => str_eqb (e_name g) s0) (events_of ops) (fun y => str_eqb_eq _ _)) as HN.
  rewrite Forall_forall in HN. rewrite <- HN. destruct (find _ (events_of ops)) as [e|] eqn:E.
  - apply find_some in E as [I E]. apply andb_true_iff in E as [E1 E2]. apply str_eqb_eq in E1. apply bytes_eqb_eq in E2. split.
    + split; [discriminate|]. intros H. destruct (proj1 HN H e I E1).
    + split; [discriminate|]. intros [_ H]. destruct (H e I E1). now apply event_hash_iff.
  - assert (H : forall g, In g (events_of ops) -> e_name g = s0 -> ~ event_hash g h).
    { intros g I G X. apply event_hash_iff in X. pose proof (List.find_none _ _ E _ I) as Y. cbv beta in Y.
      apply str_eqb_eq in G. apply bytes_eqb_eq in X. rewrite G, X in Y. discriminate. }
    destruct (filter (fun e => str_eqb (e_name e) s0) (events_of ops)) as [|x l] eqn:Ef.
    + split; [tauto|]. split; [discriminate|]. intros [(g & I & G) _]. destruct (proj1 HN eq_refl g I G).
    + assert (N : exists g, In g (events_of ops) /\ e_name g = s0).
      { exists x. assert (I : In x (x :: l)) by now left. rewrite <- Ef in I. apply filter_In in I as [I G]. apply str_eqb_eq in G. auto. }
      split; [split; discriminate|]. split; [auto|reflexivity].
Qed.
Lemma load_event_signature path ops s0 rest e : abi_file files path ops -> plain_name s0 = true ->
  (load_event p files path (s0 ++ 40 :: rest) = Ok e <->
   first_such (fun g => e_name g = s0 /\ event_hash g (keccak256 (utf8 (unspaced (s0 ++ 40 :: rest))))) (events_of ops) e).
Proof.
  intros F P0. rewrite (@load_event_eq path ops s0 rest F P0). cbv zeta.
  rewrite <- (@find_first_such _ _ (fun e => str_eqb (e_name e) s0 && bytes_eqb (hash_of e) (keccak256 (utf8 (unspaced (s0 ++ 40 :: rest)))))).
  - destruct (find _ _); split; congruence.
  - intros y. rewrite andb_true_iff, str_eqb_eq, bytes_eqb_eq, event_hash_iff. reflexivity.
Qed.
Lemma load_event_found path ops s e : abi_file files path ops -> In e (events_of ops) -> event_canonical e (unspaced s) ->
  (exists rest, s = e_name e ++ 40 :: rest) ->
  (forall g a, In g (events_of ops) -> event_canonical g a -> keccak256 (utf8 a) = keccak256 (utf8 (unspaced s)) -> a = unspaced s) ->
  exists e', load_event p files path s = Ok e' /\ In e' (events_of ops) /\ e_name e' = e_name e /\ map ep_kind (e_inputs e') = map ep_kind (e_inputs e).
Proof.
  intros F I C [rest ->] Inj. destruct (file_plain F) as [_ PL]. rewrite Forall_forall in PL. pose proof (PL _ I) as P0.
  rewrite (@load_event_eq path ops (e_name e) rest F P0). cbv zeta.
  destruct (find _ _) as [e'|] eqn:E.
  - exists e'. apply find_some in E as [I' E]. apply andb_true_iff in E as [E1 E2]. apply str_eqb_eq in E1. apply bytes_eqb_eq in E2.
    split; [reflexivity|]. split; [exact I'|]. split; [exact E1|].
    destruct (canonical_exists (e_name e') (map ep_kind (e_inputs e'))) as [a C'].
    rewrite (proj2 (@hash_of_canonical e' a C')) in E2. rewrite (Inj _ _ I' C' E2) in C'.
    destruct (canonical_unique (e_name e) (map ep_kind (e_inputs e))) as (s' & Cs & U & D). rewrite (U _ C) in C'.
    apply (D _ _ (PL _ I) (PL _ I') C').
  - exfalso. pose proof (List.find_none _ _ E _ I) as X. cbv beta in X.
    rewrite (proj2 (str_eqb_eq _ _) eq_refl), (proj2 (@hash_of_canonical e _ C)), (proj2 (bytes_eqb_eq _ _) eq_refl) in X. discriminate.
Qed.

(** *** No panic *)
Lemma bind_panic_iff A B (r : res A) (k : A -> res B) : (do x <- r; k x) = Panic <-> r = Panic \/ exists x, r = Ok x /\ k x = Panic.
Proof.
  destruct r as [a|e|]; cbn [bind].
  - split; [intros E; right; eauto|intros [|(x & E & H)]; congruence].
  - split; [discriminate|intros [|(x & E & H)]; congruence].
  - split; auto.
Qed.
Lemma groups_nonempty j c : load p j = Ok c ->
  (forall n, functions_by_name c n <> Ok [] /\ functions_by_name c n <> Panic) /\ (forall n, events_by_name c n <> Ok [] /\ events_by_name c n <> Panic).
Proof.
  intros L. destruct (loaded_lookup _ _ L) as (items & ops & _ & _ & HF & HE & _).
  split; intros n; [rewrite HF|rewrite HE]; destruct (filter _ _); split; discriminate.
Qed.
Lemma load_calm path n : (forall j, files path = Some j -> load p j <> Panic) ->
  load_function p files path n <> Panic /\ load_event p files path n <> Panic.
Proof.
  intros H. assert (O : open_contract p files path <> Panic).
  { unfold open_contract. destruct (files path); [auto|discriminate]. }
  unfold load_function, load_event. destruct (open_contract p files path) as [c|e|] eqn:E; [|split; discriminate|congruence]. clear O. cbn [bind].
  unfold open_contract in E. destruct (files path) as [j|]; [|discriminate]. destruct (groups_nonempty _ E) as [GF GE].
  destruct (plain_name n) eqn:P.
  - rewrite (proj2 (ItemFacts.find_none n 40)) by now apply plain_not_in. specialize (GF n). specialize (GE n). split.
    + destruct (functions_by_name c n) as [[|x [|y l]]| |]; cbn [bind]; intuition congruence.
    + destruct (events_by_name c n) as [[|x [|y l]]| |]; cbn [bind]; intuition congruence.
  - destruct (name_split _ P) as (s0 & rest & -> & P0). destruct (@before_slice (s0 ++ 40 :: rest) s0 rest eq_refl P0) as [B1 B2].
    rewrite B1, B2. cbn [bind]. specialize (GF s0). specialize (GE s0). split.
    + destruct (functions_by_name c s0) as [l| |]; cbn [bind]; [|discriminate|intuition congruence]. destruct (find _ l); discriminate.
    + rewrite hash_signature_ok. cbn [bind]. destruct (events_by_name c s0) as [l| |]; cbn [bind]; [|discriminate|intuition congruence].
      rewrite (@findM_find _ _ (fun e => bytes_eqb (hash_of e) (keccak256 (utf8 (unspaced (s0 ++ 40 :: rest)))))) by (intros y; rewrite hash_of_ok; reflexivity).
      cbn [bind]. destruct (find _ l); discriminate.
Qed.
End Load.
