(** Proofs of C82 *)
From Coq Require Import DecimalString String Ascii Reals List Arith Bool Lia.
From Verif Require Import RLib Spec Spec_Layers M_Core M_Utils M_MergeLayers M_Ops M_Layers M_Convert M_State Spec_State P_State P_StateNames P_StateThm M_Names Spec_Names P_Names P_NamesThm M_GridParams Spec_GridParams.
Import ListNotations.
Local Open Scope nat_scope.

(** ** strings *)
Lemma sapp_assoc : forall a b c : string, ((a ++ b) ++ c = a ++ (b ++ c))%string.
Proof. induction a as [|x a IH]; intros b c; [reflexivity|]. cbn. rewrite IH. reflexivity. Qed.
Lemma prefix_iff : forall p s, String.prefix p s = true <-> exists b, s = (p ++ b)%string.
Proof.
  induction p as [|c p IH]; intros s; [split; [intros _; exists s; reflexivity|destruct s; reflexivity]|].
  destruct s as [|d s]; cbn; [split; [discriminate|intros [b E]; discriminate E]|].
  destruct (Ascii.ascii_dec c d) as [->|N].
  - rewrite IH. split; intros [b E]; [exists b; rewrite E; reflexivity|injection E as E; exists b; exact E].
  - split; [discriminate|]. intros [b E]. injection E as E1 E. congruence.
Qed.
Lemma occurs_iff : forall p s, occurs p s = true <-> contains p s.
Proof.
  intros p s. induction s as [|c s IH]; cbn [occurs].
  - destruct (String.prefix p "") eqn:E.
    + split; [intros _|reflexivity]. apply prefix_iff in E. destruct E as [b E]. exists ""%string, b. exact E.
    + split; [discriminate|]. intros (a & b & H). destruct a; [|discriminate H]. assert (String.prefix p "" = true); [apply prefix_iff; exists b; exact H|congruence].
  - destruct (String.prefix p (String c s)) eqn:E.
    + split; [intros _|reflexivity]. apply prefix_iff in E. destruct E as [b E]. exists ""%string, b. exact E.
    + rewrite IH. split; intros (a & b & H).
      * exists (String c a), b. rewrite H. reflexivity.
      * destruct a as [|d a]; [assert (String.prefix p (String c s) = true); [apply prefix_iff; exists b; exact H|congruence]|].
        injection H as _ H. exists a, b. exact H.
Qed.
Lemma app_split : forall p x b m : string, (x ++ m = p ++ b)%string -> (exists b', x = p ++ b')%string \/ exists p2, (p = x ++ p2)%string /\ (m = p2 ++ b)%string /\ p2 <> ""%string.
Proof.
  induction p as [|c p IH]; intros x b m E; [left; exists x; reflexivity|]. destruct x as [|d x].
  - right. exists (String c p). cbn in E. repeat split; [exact E|discriminate].
  - cbn in E. injection E as -> E. destruct (IH x b m E) as [[b' ->]|(p2 & -> & E2 & N)]; [left; exists b'; reflexivity|right; exists p2; auto].
Qed.
Lemma contains_app : forall p x m, contains p (x ++ m) -> contains p x \/ contains p m \/ exists a p1 p2 b, (x = a ++ p1)%string /\ (p = p1 ++ p2)%string /\ (m = p2 ++ b)%string /\ p2 <> ""%string.
Proof.
  intros p x m (a & b & E). revert x m E. induction a as [|c a IH]; intros x m E.
  - cbn in E. destruct (app_split p x b m E) as [[b' ->]|(p2 & Ep & Em & N)]; [left; exists ""%string, b'; reflexivity|].
    right. right. exists ""%string, x, p2, b. auto.
  - destruct x as [|d x]; [right; left; exists (String c a), b; exact E|]. cbn in E. injection E as -> E.
    destruct (IH x m E) as [(a' & b' & ->)|[H|(a' & p1 & p2 & b' & -> & H)]].
    + left. exists (String c a'), b'. reflexivity.
    + right. left. exact H.
    + right. right. exists (String c a'), p1, p2, b'. split; [reflexivity|exact H].
Qed.
(** the pattern cut at its underscore *)
Lemma pattern_cut : forall p1 p2, ("backward_activation" = p1 ++ String "_" p2)%string -> p1 = "backward"%string /\ p2 = "activation"%string.
Proof.
  intros p1 p2 E. do 19 (destruct p1 as [|? p1]; [cbn in E; first [discriminate E|injection E as <-; auto]|cbn in E; injection E as <- E]).
  destruct p1; discriminate E.
Qed.
Lemma clean_us : forall s m, ordinary s \/ ~ contains "backward_activation" s /\ (forall b, m <> "activation" ++ b)%string ->
  ~ contains "backward_activation" (String "_" m) -> ~ contains "backward_activation" (s ++ String "_" m).
Proof.
  intros s m Hs Hm H. destruct (contains_app _ _ _ H) as [Q|[Q|(a & p1 & p2 & b & E1 & E2 & E3 & N)]].
  - destruct Hs as [[Hs _]|[Hs _]]; exact (Hs Q).
  - exact (Hm Q).
  - destruct p2 as [|c p2]; [congruence|]. cbn in E3. injection E3 as <- E3. destruct (pattern_cut p1 p2 E2) as [-> ->].
    destruct Hs as [[_ Hs]|[_ Hs]]; [apply Hs; exists a; exact E1|exact (Hs b E3)].
Qed.
(** endings *)
Fixpoint slast (s : string) (d : ascii) : ascii := match s with EmptyString => d | String c q => slast q c end.
Lemma slast_app : forall a b d, slast (a ++ b) d = slast b (slast a d).
Proof. induction a as [|c a IH]; intros b d; [reflexivity|]. cbn. apply IH. Qed.
Lemma ends_last : forall p s d, p <> ""%string -> ends_with p s -> slast s d = slast p d.
Proof. intros p s d N [a ->]. rewrite slast_app. destruct p as [|c p]; [congruence|reflexivity]. Qed.
Lemma ends_no : forall s m, m <> ""%string -> slast m "x" <> "d"%char -> ~ ends_with "backward" (s ++ m).
Proof.
  intros s m N L H. apply (ends_last _ _ "x"%char) in H; [|discriminate]. rewrite slast_app in H. destruct m as [|c m]; [congruence|]. exact (L H).
Qed.

Lemma digits_first : forall d, match NilEmpty.string_of_uint d with EmptyString => True | String c _ => c <> "a"%char end.
Proof. intros d. destruct d; cbn; try exact I; discriminate. Qed.
Lemma digits_no : forall c, In c ["a"; "b"; "d"]%char -> forall d, ~ In c (list_ascii_of_string (NilEmpty.string_of_uint d)).
Proof. intros c Hc d. induction d as [|d IH|d IH|d IH|d IH|d IH|d IH|d IH|d IH|d IH|d IH]; cbn; [tauto|..]; intros [H|H]; try (exact (IH H)); subst c; repeat (destruct Hc as [Hc|Hc]; [discriminate Hc|]); exact Hc. Qed.
Lemma nat_no : forall c n, In c ["a"; "b"; "d"]%char -> ~ In c (list_ascii_of_string (string_of_nat n)).
Proof.
  intros c n Hc. unfold string_of_nat, NilZero.string_of_uint. destruct (Nat.to_uint n) eqn:E; try (rewrite <- E); try (apply digits_no; exact Hc).
  cbn. intros [H|[]]. subst c. repeat (destruct Hc as [Hc|Hc]; [discriminate Hc|]). exact Hc.
Qed.
Lemma nat_nonempty : forall n, string_of_nat n <> ""%string.
Proof. intros n. unfold string_of_nat, NilZero.string_of_uint. destruct (Nat.to_uint n); discriminate. Qed.
Lemma list_app : forall a b, list_ascii_of_string (a ++ b) = (list_ascii_of_string a ++ list_ascii_of_string b)%list.
Proof. induction a as [|c a IH]; intros b; [reflexivity|]. cbn. rewrite IH. reflexivity. Qed.
Lemma slast_in : forall s d, s <> ""%string -> In (slast s d) (list_ascii_of_string s).
Proof.
  induction s as [|c s IH]; intros d N; [congruence|]. cbn. destruct s as [|e s]; [left; reflexivity|]. right. apply IH. discriminate.
Qed.
Lemma no_b : forall s, ~ In "b"%char (list_ascii_of_string s) -> ~ contains "backward_activation" s.
Proof. intros s N (a & b & ->). apply N. rewrite list_app. apply in_or_app. right. left. reflexivity. Qed.
Ltac nob := apply no_b; cbn; intros Q; repeat (destruct Q as [Q|Q]; [discriminate Q|]); exact Q.
Lemma first_a : forall m b, m <> ""%string -> ~ In "a"%char (list_ascii_of_string m) -> m <> ("activation" ++ b)%string.
Proof. intros m b N H ->. apply H. left. reflexivity. Qed.

Lemma ord_count : forall s c, ~ contains "backward_activation" s -> ordinary (add_count s c).
Proof.
  intros s c H. unfold add_count. split.
  - change ("_" ++ string_of_nat c)%string with (String "_" (string_of_nat c)). apply clean_us.
    + right. split; [exact H|]. intros b. apply first_a; [apply nat_nonempty|apply nat_no; left; reflexivity].
    + apply no_b. cbn. intros [Q|Q]; [discriminate Q|]. revert Q. apply nat_no. right. left. reflexivity.
  - apply ends_no; [discriminate|]. change ("_" ++ string_of_nat c)%string with (String "_" (string_of_nat c)). cbn. intros Q.
    apply (nat_no "d" c); [right; right; left; reflexivity|]. rewrite <- Q. apply slast_in, nat_nonempty.
Qed.
Lemma ord_wo : forall s, ordinary s -> ordinary (s ++ "_wo_activation").
Proof. intros s H. split; [apply clean_us; [left; exact H|nob]|apply ends_no; [discriminate|cbn; discriminate]]. Qed.
Lemma ord_act : forall s, ordinary s -> ordinary (s ++ "_activation").
Proof. intros s H. split; [apply clean_us; [left; exact H|nob]|apply ends_no; [discriminate|cbn; discriminate]]. Qed.
Lemma ord_decomon : forall s, ordinary s -> ordinary (s ++ "_decomon").
Proof. intros s H. split; [apply clean_us; [left; exact H|nob]|apply ends_no; [discriminate|cbn; discriminate]]. Qed.
Lemma clean_backward : forall s, ~ contains "backward_activation" s -> ~ contains "backward_activation" (s ++ "_backward").
Proof.
  intros s H. apply clean_us.
  - right. split; [exact H|]. intros b Q. discriminate Q.
  - intros Q. apply occurs_iff in Q. discriminate Q.
Qed.
Lemma sapp_cancel : forall a b c : string, (a ++ b = a ++ c)%string -> b = c.
Proof. induction a as [|x a IH]; intros b c E; [exact E|]. cbn in E. injection E as E. apply IH. exact E. Qed.
Lemma ord_layer : forall s t, ordinary s -> ordinary t -> ordinary (s ++ "_activation_" ++ t).
Proof.
  intros s t Hs Ht. split.
  - change ("_activation_" ++ t)%string with (String "_" ("activation_" ++ t)). apply clean_us; [left; exact Hs|].
    change (String "_" ("activation_" ++ t)) with ("_activation_" ++ t)%string. intros H. destruct (contains_app _ _ _ H) as [Q|[Q|(a & p1 & p2 & b & E1 & E2 & E3 & _)]].
    + revert Q. nob.
    + exact (proj1 Ht Q).
    + destruct p1 as [|c p1]; [cbn in E2; subst p2; apply (proj1 Ht); exists ""%string, b; exact E3|]. cbn in E2. injection E2 as <- _.
      assert (Q : In "b"%char (list_ascii_of_string "_activation_")) by (rewrite E1, list_app; apply in_or_app; right; left; reflexivity).
      cbn in Q. repeat (destruct Q as [Q|Q]; [discriminate Q|]). exact Q.
  - intros [a E]. rewrite <- sapp_assoc in E. destruct (app_split a (s ++ "_activation_") "backward" t E) as [[b' Eb]|(p2 & _ & Et & _)].
    + rewrite Eb, sapp_assoc in E. apply sapp_cancel in E. destruct b' as [|c b'].
      * apply (proj2 Ht). exists ""%string. exact E.
      * assert (Q : slast (String c b') "x" = "_"%char).
        { assert (Z : slast (s ++ "_activation_") "x" = slast (a ++ String c b') "x") by (rewrite Eb; reflexivity). rewrite !slast_app in Z. cbn [slast] in *. rewrite <- Z. reflexivity. }
        assert (Z : In "_"%char (list_ascii_of_string "backward")) by (rewrite <- E, list_app; apply in_or_app; left; rewrite <- Q; apply slast_in; discriminate).
        cbn in Z. repeat (destruct Z as [Z|Z]; [discriminate Z|]). exact Z.
    + apply (proj2 Ht). exists p2. exact Et.
Qed.

(** ** the names of a converted model *)
Definition all_ord (h : heap) : Prop := forall r, ordinary (lo_name (h_obj h r)).
Lemma ord_upd : forall h r o, all_ord h -> ordinary (lo_name o) -> forall q, ordinary (lo_name (upd (h_obj h) r o q)).
Proof. intros h r o H Ho q. destruct (Nat.eq_dec q r) as [->|N]; [rewrite upd_same; exact Ho|rewrite upd_other by exact N; apply H]. Qed.
Lemma ord_alloc : forall h o, all_ord h -> ordinary (lo_name o) -> all_ord (fst (alloc h o)).
Proof. intros h o H Ho q. apply ord_upd; assumption. Qed.
Lemma ord_rename : forall h r s, all_ord h -> ordinary s -> all_ord (rename h r s).
Proof. intros h r s H Hs q. apply ord_upd; assumption. Qed.
Lemma ord_rename_all : forall rs h c, all_ord h -> all_ord (fst (rename_all h c rs)).
Proof. induction rs as [|a q IH]; intros h c H; [exact H|]. cbn [rename_all]. apply IH, ord_rename; [exact H|apply ord_count, H]. Qed.
Lemma ord_split : forall h r, all_ord h -> all_ord (fst (split_obj h r)).
Proof.
  intros h r H. unfold split_obj. destruct (is_activation_class _); [exact H|]. destruct (lo_act (h_obj h r)) as [|s|b]; [exact H| |].
  - destruct (String.eqb s "linear"); [exact H|].
    pose proof (ord_alloc h (mk_lobj (lo_name (h_obj h r) ++ "_wo_activation") (lo_class (h_obj h r)) (AName "linear")) H (ord_wo _ (H r))) as H1.
    destruct (alloc h _) as [h1 a]. cbn [fst] in *.
    exact (ord_alloc h1 (mk_lobj (lo_name (h_obj h r) ++ "_activation") CActivation (AName s)) H1 (ord_act _ (H r))).
  - pose proof (ord_alloc h (mk_lobj (lo_name (h_obj h r) ++ "_wo_activation") (lo_class (h_obj h r)) (AName "linear")) H (ord_wo _ (H r))) as H1.
    destruct (alloc h _) as [h1 a]. cbn [fst] in *. apply ord_rename; [exact H1|]. apply ord_layer; [apply H|apply H1].
Qed.
Lemma ord_split_node : forall st r, all_ord (ps_heap st) -> all_ord (ps_heap (split_node st r)).
Proof.
  intros st r H. unfold split_node. destruct (ps_map st r) as [rs|].
  - pose proof (ord_rename_all rs _ (ps_count st) H) as G. destruct (rename_all _ _ _). exact G.
  - pose proof (ord_split _ r H) as G. destruct (split_obj _ r) as [h1 rs]. cbn [fst] in G. pose proof (ord_rename_all rs h1 (ps_count st) G) as G'. destruct (rename_all _ _ _). exact G'.
Qed.
Lemma ord_preprocess : forall ops h, all_ord h -> all_ord (ps_heap (preprocess_objs h ops)).
Proof.
  intros ops h H. unfold preprocess_objs. assert (G : forall l st, all_ord (ps_heap st) -> all_ord (ps_heap (fold_left split_node l st))).
  { induction l as [|r l IH]; intros st Hs; [exact Hs|]. cbn. apply IH, ord_split_node, Hs. }
  apply G. exact H.
Qed.
Lemma ord_activation : ordinary "activation".
Proof. split; [nob|]. intros H. apply (ends_last _ _ "x"%char) in H; [|discriminate]. cbn in H. discriminate H. Qed.
Lemma ord_end : forall h called, all_ord h -> all_ord (fst (linear_end h called)).
Proof.
  intros h called H. unfold linear_end. destruct (rev called) as [|r q]; [exact H|].
  assert (G : all_ord (fst (softmax_to_linear h r))).
  { unfold softmax_to_linear. destruct (lo_class (h_obj h r)); try (apply ord_alloc; [exact H|exact ord_activation]);
      (destruct (lo_act (h_obj h r)) as [|s|b]; try exact H; destruct (String.eqb s "softmax"); [|exact H]; intros x; apply ord_upd; [exact H|apply H]). }
  destruct (softmax_to_linear h r) as [h1 r1]. exact G.
Qed.
Lemma ord_decomon_node : forall st r, all_ord (ps_heap st) -> all_ord (ps_heap (decomon_node st r)).
Proof.
  intros st r H. unfold decomon_node. destruct (ps_map st r) as [rs|].
  - pose proof (ord_rename_all rs _ (ps_count st) H) as G. destruct (rename_all _ _ _). exact G.
  - unfold new_decomon. pose proof (ord_alloc (ps_heap st) (mk_lobj (lo_name (h_obj (ps_heap st) r) ++ "_decomon") (lo_class (h_obj (ps_heap st) r)) (lo_act (h_obj (ps_heap st) r))) H (ord_decomon _ (H r))) as G.
    destruct (alloc _ _) as [h1 a]. cbn [fst] in G. pose proof (ord_rename_all [a] h1 (ps_count st) G) as G'. destruct (rename_all _ _ _). exact G'.
Qed.
Lemma ord_forward : forall called h, all_ord h -> all_ord (ps_heap (forward_objs h called)).
Proof.
  intros called h H. unfold forward_objs. assert (G : forall l st, all_ord (ps_heap st) -> all_ord (ps_heap (fold_left decomon_node l st))).
  { induction l as [|r l IH]; intros st Hs; [exact Hs|]. cbn. apply IH, ord_decomon_node, Hs. }
  apply G. exact H.
Qed.
Definition all_clean (h : heap) : Prop := forall r, ~ contains "backward_activation" (lo_name (h_obj h r)).
Lemma clean_backward_objs : forall nodes h acc, all_clean h -> all_clean (fst (fold_left backward_node nodes (h, acc))).
Proof.
  induction nodes as [|r q IH]; intros h acc H; [exact H|]. cbn [fold_left backward_node]. unfold new_backward. 
  assert (G : all_clean (fst (alloc h (mk_lobj (lo_name (h_obj h r) ++ "_backward") (lo_class (h_obj h r)) (lo_act (h_obj h r)))))).
  { intros x. cbn. destruct (Nat.eq_dec x (h_next h)) as [->|N]; [rewrite upd_same; apply clean_backward, H|rewrite upd_other by exact N; apply H]. }
  destruct (alloc h _) as [h1 b]. apply IH. exact G.
Qed.
Lemma loop_clean : forall A (get : glayer -> option A) ls d, (forall l, In l ls -> ~ contains "backward_activation" (gl_name l)) -> grid_loop get ls d = Ok d.
Proof.
  intros A get ls. induction ls as [|l q IH]; intros d H; [reflexivity|]. cbn [grid_loop]. destruct (occurs _ _) eqn:E; [exfalso; apply (H l (or_introl eq_refl)), occurs_iff, E|].
  apply IH. intros x Hx. apply H. right. exact Hx.
Qed.
(** the layers, their names and the names of C81 *)
Lemma clone_glayers_clean : forall m mode ft h inputs ops ls, all_ord h -> clone_glayers m mode ft h inputs ops = Ok ls -> forall l, In l ls -> ~ contains "backward_activation" (gl_name l).
Proof.
  intros m mode ft h inputs ops ls H E. unfold clone_glayers in E. pose proof (ord_preprocess ops h H) as HP. set (st := preprocess_objs h ops) in *.
  destruct (keras_model (ps_heap st) (inputs ++ ps_called st)) as [?|?]; [|discriminate E]. cbn [bind] in E.
  match type of E with context [match ?X with (h1, fs) => _ end = _] => assert (H1 : all_ord (fst X)); [|destruct X as [h1 fs]] end.
  { destruct m; try exact HP; (pose proof (ord_end _ (ps_called st) HP) as G; destruct (linear_end _ _) as [h1 called]; cbn [fst] in *; apply ord_forward; exact G). }
  cbn [fst] in H1.
  match type of E with (match ?X with pair _ _ => _ end) = _ => assert (H2 : all_clean (fst (fst X))); [|destruct X as [[h2 nodes] bs]] end.
  { destruct (get_direction m); [intros r; apply H1|]. pose proof (ord_end _ (ps_called st) H1) as G. destruct (linear_end h1 _) as [h2 called]. cbn [fst] in G.
    pose proof (clean_backward_objs (inputs ++ called) h2 [] (fun r => proj1 (G r))) as G'. unfold backward_objs. destruct (fold_left backward_node (inputs ++ called) (h2, [])) as [h3 bs]. exact G'. }
  cbn [fst] in H2. destruct (keras_model h2 (fs ++ bs)) as [?|?]; [|discriminate E]. cbn [bind] in E. injection E as <-. intros l Hl. apply in_app_or in Hl. destruct Hl as [Hl|Hl].
  - apply in_map_iff in Hl. destruct Hl as (r & <- & _). apply H2.
  - apply in_map_iff in Hl. destruct Hl as (q & <- & _). apply H2.
Qed.
Lemma grid_params_empty : forall m mode ft h inputs ops ls milp, (forall r, ordinary (lo_name (h_obj h r))) -> clone_glayers m mode ft h inputs ops = Ok ls ->
  get_AB milp ls = Ok [] /\ get_AB_finetune milp ft ls = Ok [].
Proof.
  intros m mode ft h inputs ops ls milp H E. pose proof (clone_glayers_clean m mode ft h inputs ops ls H E) as C.
  unfold get_AB, get_AB_finetune. destruct milp; [|auto]. rewrite (loop_clean _ gl_grid ls [] C), (loop_clean _ gl_alpha ls [] C). destruct ft; auto.
Qed.
Lemma backward_length : forall nodes h acc, length (snd (fold_left backward_node nodes (h, acc))) = length acc + length nodes.
Proof.
  induction nodes as [|r q IH]; intros h acc; [cbn; lia|]. cbn [fold_left backward_node new_backward alloc]. unfold new_backward, alloc. rewrite IH, app_length. cbn. lia.
Qed.
Lemma glayers_names : forall m mode ft h inputs ops ls, clone_glayers m mode ft h inputs ops = Ok ls -> clone_layers m h inputs ops = Ok (map gl_name ls).
Proof.
  intros m mode ft h inputs ops ls E. unfold clone_glayers in E. unfold clone_layers. set (st := preprocess_objs h ops) in *.
  destruct (keras_model (ps_heap st) (inputs ++ ps_called st)) as [?|?]; [|discriminate E]. cbn [bind] in *.
  match type of E with context [match ?X with (h1, fs) => _ end = _] => destruct X as [h1 fs] end.
  assert (C : forall h2 nodes bs, length nodes = length bs -> map gl_name (map (decomon_glayer h2) fs ++ map (fun q => backward_glayer h2 mode ft (fst q) (snd q)) (combine nodes bs)) = map (fun r => lo_name (h_obj h2 r)) (fs ++ bs)).
  { intros h2 nodes bs L. rewrite !map_app, !map_map. f_equal. revert bs L. induction nodes as [|x nodes IH]; intros [|b bs] L; try discriminate L; [reflexivity|]. cbn. f_equal. apply IH. cbn in L. lia. }
  destruct (get_direction m).
  - destruct (keras_model h1 (fs ++ [])) as [rs|] eqn:K; [|discriminate E]. destruct (keras_model_names _ _ _ K) as [-> _]. cbn [bind] in *. injection E as <-. f_equal. symmetry. exact (C h1 [] [] eq_refl).
  - destruct (linear_end h1 _) as [h2 called]. pose proof (backward_length (inputs ++ called) h2 []) as L. unfold backward_objs in *. destruct (fold_left backward_node (inputs ++ called) (h2, [])) as [h3 bs].
    cbn [snd length plus] in L. destruct (keras_model h3 (fs ++ bs)) as [rs|] eqn:K; [|discriminate E]. destruct (keras_model_names _ _ _ K) as [-> _]. cbn [bind] in *. injection E as <-. f_equal. symmetry. exact (C h3 _ bs (eq_sym L)).
Qed.

(** ** what the functions return on any list of layers *)
Lemma dict_has_iff : forall A (d : list (string * A)) k, dict_has d k = true <-> In k (map fst d).
Proof.
  intros A d k. unfold dict_has. rewrite existsb_exists, in_map_iff. split.
  - intros (e & He & E). apply String.eqb_eq in E. exists e. auto.
  - intros (e & E & He). exists e. split; [exact He|]. apply String.eqb_eq. auto.
Qed.
Lemma NoDup_app_snoc_fst : forall (l : list string) x, NoDup l -> ~ In x l -> NoDup (l ++ [x]).
Proof.
  intros l x. induction l as [|a l IH]; intros N H; [constructor; [intros []|constructor]|]. inversion N; subst. cbn. constructor.
  - intros Q. apply in_app_or in Q. destruct Q as [Q|[Q|[]]]; [contradiction|subst; apply H; left; reflexivity].
  - apply IH; [assumption|]. intros Q. apply H. right. exact Q.
Qed.
Lemma loop_ok : forall A (get : glayer -> option A) ls d, (forall l, In l ls -> contains "backward_activation" (gl_name l) -> gl_back l <> None /\ get l <> None) ->
  NoDup (map fst d) -> exists r, grid_loop get ls d = Ok (d ++ r) /\ NoDup (map fst (d ++ r)) /\
    forall k v, In (k, v) r <-> ~ In k (map fst d) /\ first_entry keyed gkey get ls k v.
Proof.
  intros A get ls. induction ls as [|l q IH]; intros d H ND.
  - exists []. rewrite app_nil_r. split; [reflexivity|]. split; [exact ND|]. intros k v. split; [intros []|]. intros (_ & a & x & b & E & _). destruct a; discriminate E.
  - assert (Hq : forall x, In x q -> contains "backward_activation" (gl_name x) -> gl_back x <> None /\ get x <> None) by (intros x Hx; apply H; right; exact Hx).
    cbn [grid_loop]. destruct (occurs "backward_activation" (gl_name l)) eqn:E.
    + apply occurs_iff in E. destruct (H l (or_introl eq_refl) E) as [Hb Hg]. destruct (gl_back l) as [[s n]|] eqn:Eb; [|congruence].
      assert (Ek : gl_key l = Ok (gkey l)) by (unfold gkey, gl_key; rewrite Eb; reflexivity). rewrite Ek. cbn [bind].
      destruct (dict_has d (gkey l)) eqn:Ed.
      * apply dict_has_iff in Ed. destruct (IH d Hq ND) as (r & E1 & N1 & S1). exists r. split; [exact E1|]. split; [exact N1|]. intros k v. rewrite S1. split.
        -- intros (Nk & a & x & b & Ea & Px & Kx & Vx & Fa). split; [exact Nk|]. exists (l :: a), x, b. split; [cbn; rewrite Ea; reflexivity|]. split; [exact Px|]. split; [exact Kx|]. split; [exact Vx|].
           intros y [<-|Hy] Py; [intros Q; apply Nk; rewrite <- Q; exact Ed|apply Fa; assumption].
        -- intros (Nk & a & x & b & Ea & Px & Kx & Vx & Fa). split; [exact Nk|]. destruct a as [|y a]; cbn in Ea; injection Ea as <- Ea; [exfalso; apply Nk; rewrite <- Kx; exact Ed|].
           exists a, x, b. split; [exact Ea|]. split; [exact Px|]. split; [exact Kx|]. split; [exact Vx|]. intros y Hy. apply Fa. right. exact Hy.
      * assert (Nd : ~ In (gkey l) (map fst d)) by (intros Q; apply dict_has_iff in Q; congruence).
        destruct (get l) as [w|] eqn:Eg; [|congruence]. cbn [attribute bind].
        assert (ND1 : NoDup (map fst (d ++ [(gkey l, w)]))) by (rewrite map_app; cbn; apply NoDup_app_snoc_fst; assumption).
        destruct (IH (d ++ [(gkey l, w)]) Hq ND1) as (r & E1 & N1 & S1). exists ((gkey l, w) :: r). rewrite <- app_assoc in *. cbn [app] in *. split; [exact E1|]. split; [exact N1|].
        intros k v. cbn [In]. rewrite S1, map_app, in_app_iff. cbn [map fst In]. split.
        -- intros [Q|(Nk & a & x & b & Ea & Px & Kx & Vx & Fa)].
           ++ injection Q as <- <-. split; [exact Nd|]. exists [], l, q. split; [reflexivity|]. split; [exact E|]. split; [reflexivity|]. split; [exact Eg|]. intros y [].
           ++ split; [intros Q; apply Nk; left; exact Q|]. exists (l :: a), x, b. split; [cbn; rewrite Ea; reflexivity|]. split; [exact Px|]. split; [exact Kx|]. split; [exact Vx|].
              intros y [<-|Hy] Py; [intros Q; apply Nk; right; left; exact Q|apply Fa; assumption].
        -- intros (Nk & a & x & b & Ea & Px & Kx & Vx & Fa). destruct a as [|y a]; cbn in Ea; injection Ea as <- Ea.
           ++ left. rewrite Eg in Vx. injection Vx as <-. rewrite Kx. reflexivity.
           ++ right. split; [intros [Q|[Q|[]]]; [exact (Nk Q)|exact (Fa l (or_introl eq_refl) E Q)]|]. exists a, x, b. split; [exact Ea|]. split; [exact Px|]. split; [exact Kx|]. split; [exact Vx|]. intros y Hy. apply Fa. right. exact Hy.
    + assert (Nl : ~ keyed l) by (intros Q; apply occurs_iff in Q; congruence). destruct (IH d Hq ND) as (r & E1 & N1 & S1). exists r. split; [exact E1|]. split; [exact N1|]. intros k v. rewrite S1. split.
      * intros (Nk & a & x & b & Ea & R). split; [exact Nk|]. destruct R as (Px & Kx & Vx & Fa). exists (l :: a), x, b. split; [cbn; rewrite Ea; reflexivity|]. repeat (split; [assumption|]).
        intros y [<-|Hy] Py; [contradiction|apply Fa; assumption].
      * intros (Nk & a & x & b & Ea & Px & Kx & Vx & Fa). split; [exact Nk|]. destruct a as [|y a]; cbn in Ea; injection Ea as <- Ea; [contradiction|].
        exists a, x, b. repeat (split; [assumption|]). intros y Hy. apply Fa. right. exact Hy.
Qed.
Lemma loop_err : forall A (get : glayer -> option A) ls d, (exists l, In l ls /\ contains "backward_activation" (gl_name l) /\ gl_back l = None) -> grid_loop get ls d = Err AttributeError.
Proof.
  intros A get ls. induction ls as [|x q IH]; intros d (l & Hl & Cl & Bl); [destruct Hl|]. cbn [grid_loop]. destruct Hl as [->|Hl].
  - apply occurs_iff in Cl. rewrite Cl. unfold gl_key. rewrite Bl. reflexivity.
  - assert (Q : forall d, grid_loop get q d = Err AttributeError) by (intros d'; apply IH; exists l; auto).
    destruct (occurs _ _); [|apply Q]. unfold gl_key. destruct (gl_back x) as [[s n]|]; [|reflexivity]. cbn [bind]. destruct (dict_has d _); [apply Q|]. destruct (get x); [|reflexivity]. cbn [attribute bind]. apply Q.
Qed.
Lemma grid_params_spec : forall ls, (forall l, In l ls -> contains "backward_activation" (gl_name l) -> gl_back l <> None /\ gl_grid l <> None) ->
  exists d, get_AB true ls = Ok d /\ NoDup (map fst d) /\ forall k v, In (k, v) d <-> first_entry keyed gkey gl_grid ls k v.
Proof.
  intros ls H. destruct (loop_ok _ gl_grid ls [] H (NoDup_nil _)) as (r & E & N & S). exists r. split; [exact E|]. split; [exact N|]. intros k v. rewrite S. cbn. tauto.
Qed.
Lemma grid_slope_spec : forall ls, (forall l, In l ls -> contains "backward_activation" (gl_name l) -> gl_back l <> None /\ gl_alpha l <> None) ->
  exists d, get_AB_finetune true true ls = Ok d /\ NoDup (map fst d) /\ forall k v, In (k, v) d <-> first_entry keyed gkey gl_alpha ls k v.
Proof.
  intros ls H. destruct (loop_ok _ gl_alpha ls [] H (NoDup_nil _)) as (r & E & N & S). exists r. split; [exact E|]. split; [exact N|]. intros k v. rewrite S. cbn. tauto.
Qed.
Lemma grid_params_error : forall ls, (exists l, In l ls /\ contains "backward_activation" (gl_name l) /\ gl_back l = None) ->
  get_AB true ls = Err AttributeError /\ get_AB_finetune true true ls = Err AttributeError.
Proof. intros ls H. split; exact (loop_err _ _ ls [] H). Qed.

(** ** examples: an input, Dense relu, Dense *)
Definition h_named (s : string) : heap :=
  mk_heap (fun r => match r with 0 => mk_lobj "input" CInput ANone | 1 => mk_lobj s (COther 0) (AName "relu") | _ => mk_lobj "e" (COther 0) (AName "linear") end) 3.
Lemma grid_relu_ignored : (forall r, ordinary (lo_name (h_obj (h_named "d") r))) /\ exists ls, clone_glayers CROWN HYBRID true (h_named "d") [0] [1; 2] = Ok ls /\
  (exists l, In l ls /\ gl_name l = "d_activation_1_backward"%string /\ gl_grid l = Some [GridA 7; GridB 7] /\ gl_alpha l = Some (Alpha 7)) /\
  get_AB true ls = Ok [] /\ get_AB_finetune true true ls = Ok [].
Proof.
  assert (O : forall r, ordinary (lo_name (h_obj (h_named "d") r))).
  { intros r. assert (G : forall s, (slen s < 8)%nat -> ordinary s).
    { assert (L : forall a b : string, slen (a ++ b)%string = slen a + slen b) by (induction a as [|c a IH]; intros b; cbn; [reflexivity|rewrite IH; reflexivity]).
      intros s Hs. split; [intros (a & b & E)|intros (a & E)]; apply (f_equal slen) in E; rewrite ?L in E; cbn in E; lia. }
    apply G. destruct r as [|[|r]]; cbn; lia. }
  split; [exact O|]. destruct (clone_glayers CROWN HYBRID true (h_named "d") [0] [1; 2]) as [ls|e] eqn:E; [|vm_compute in E; discriminate E].
  exists ls. split; [reflexivity|]. split; [|exact (grid_params_empty _ _ _ _ _ _ _ true O E)].
  vm_compute in E. injection E as <-. eexists. split; [right; right; left; reflexivity|]. split; [reflexivity|]. split; reflexivity.
Qed.
Lemma grid_named_found : exists ls, clone_glayers CROWN HYBRID true (h_named "d_backward") [0] [1; 2] = Ok ls /\
  get_AB true ls = Ok [("d_backward_activation_1_1"%string, [GridA 7; GridB 7])] /\ get_AB_finetune true true ls = Ok [("d_backward_activation_1_1"%string, Alpha 7)].
Proof.
  destruct (clone_glayers CROWN HYBRID true (h_named "d_backward") [0] [1; 2]) as [ls|e] eqn:E; [|vm_compute in E; discriminate E].
  exists ls. split; [reflexivity|]. vm_compute in E. injection E as <-. split; vm_compute; reflexivity.
Qed.
Lemma grid_named_error : exists ls, clone_glayers CROWN_FORWARD_HYBRID HYBRID true (h_named "d_backward") [0] [1; 2] = Ok ls /\
  get_AB true ls = Err AttributeError /\ get_AB_finetune true true ls = Err AttributeError.
Proof.
  destruct (clone_glayers CROWN_FORWARD_HYBRID HYBRID true (h_named "d_backward") [0] [1; 2]) as [ls|e] eqn:E; [|vm_compute in E; discriminate E].
  exists ls. split; [reflexivity|]. vm_compute in E. injection E as <-. split; vm_compute; reflexivity.
Qed.
