From Coq Require Import ZArith List Bool Lia String.
From Verif Require Import Base Names PropNames WfDec StructDef PropStructDef ProgFile PropProgFile Layout.
Import ListNotations.
Open Scope Z_scope.
Open Scope list_scope.

(** ** Directories *)
Lemma cut_dot_none : forall s, ~ In dot s -> cut_dot s = None.
Proof.
  induction s as [|c s IH]; intros H; [reflexivity|]. cbn [cut_dot].
  destruct (Z.eqb_spec c dot) as [E|E]; [exfalso; apply H; left; exact E|].
  rewrite IH; [reflexivity|]. intros Hi. apply H. right. exact Hi.
Qed.
Lemma cut_dot_some : forall s m, ~ In dot s -> cut_dot (s ++ dot :: m) = Some (s, m).
Proof.
  induction s as [|c s IH]; intros m H; cbn [cut_dot app].
  - rewrite Z.eqb_refl. reflexivity.
  - destruct (Z.eqb_spec c dot) as [E|E]; [exfalso; apply H; left; exact E|].
    rewrite IH; [reflexivity|]. intros Hi. apply H. right. exact Hi.
Qed.
(** The directories of the first pieces; an empty last piece has none. *)
Fixpoint chain (dir : bytes) (segs : list bytes) : list bytes :=
  match segs with
  | [] => []
  | [[]] => []
  | s :: segs' => (dir ++ [slash] ++ s) :: chain (dir ++ [slash] ++ s) segs'
  end.
Lemma dirs_loop_spec : forall segs m, dotted segs m ->
  forall fuel dir, (List.length m < fuel)%nat ->
  dirs_loop fuel dir m [] = (dir :: chain dir segs, last (dir :: chain dir segs) [], last segs []).
Proof.
  induction 1 as [s Hs|s segs m Hs Hd IH]; intros fuel dir Hf.
  - destruct fuel as [|f]; [lia|]. destruct s as [|c s]; [reflexivity|].
    cbn [dirs_loop]. rewrite (cut_dot_none _ Hs). cbn [List.length] in Hf.
    destruct f as [|f]; [lia|]. reflexivity.
  - destruct fuel as [|f]; [lia|]. rewrite app_length in Hf. cbn [List.length] in Hf.
    assert (Hne : exists c r, s ++ dot :: m = c :: r) by (destruct s; eexists; eexists; reflexivity).
    destruct Hne as (c & r & Hc).
    cbn [dirs_loop]. rewrite Hc at 1. rewrite (cut_dot_some _ _ Hs).
    rewrite IH by lia.
    assert (Hc2 : chain dir (s :: segs) = (dir ++ [slash] ++ s) :: chain (dir ++ [slash] ++ s) segs).
    { inversion Hd; subst; destruct s; reflexivity. }
    rewrite Hc2. cbn [fst snd].
    assert (Hl : last (s :: segs) [] = last segs []) by (inversion Hd; subst; reflexivity).
    apply f_equal2; [reflexivity|]. symmetry. exact Hl.
Qed.

Lemma dotted_total : forall m, exists segs, dotted segs m.
Proof.
  induction m as [|c m (segs & IH)].
  - exists [[]]. apply dotted_one. intros [].
  - destruct (Z.eq_dec c dot) as [E|E].
    + exists ([] :: segs). subst c. apply (dotted_more [] segs m); [intros []|exact IH].
    + inversion IH as [s Hs|s segs' m' Hs Hd]; subst.
      * exists [c :: m]. apply dotted_one. intros [H|H]; [exact (E H)|exact (Hs H)].
      * exists ((c :: s) :: segs'). apply (dotted_more (c :: s) segs' m'); [|exact Hd].
        intros [H|H]; [exact (E H)|exact (Hs H)].
Qed.
Lemma dotted_cons : forall segs m, dotted segs m -> exists s segs', segs = s :: segs'.
Proof. intros segs m H. inversion H; eexists; eexists; reflexivity. Qed.
Lemma dotted_last : forall segs m, dotted segs m ->
  ~ In dot (@last bytes segs []) /\
  ((m = @last bytes segs [] /\ segs = [m]) \/ exists pre, m = pre ++ dot :: @last bytes segs []).
Proof.
  induction 1 as [s Hs|s segs m Hs Hd (IH1 & IH2)].
  - split; [exact Hs|]. left. split; reflexivity.
  - destruct (dotted_cons _ _ Hd) as (s' & segs' & E).
    subst segs.
    change (~ In dot (@last bytes (s' :: segs') []) /\ ((s ++ dot :: m = @last bytes (s' :: segs') [] /\
      s :: s' :: segs' = [s ++ dot :: m]) \/ exists pre, s ++ dot :: m = pre ++ dot :: @last bytes (s' :: segs') [])).
    split; [exact IH1|]. right.
    destruct IH2 as [(E1 & _)|(pre & E1)].
    + exists s. rewrite <- E1. reflexivity.
    + exists (s ++ dot :: pre). rewrite E1 at 1. rewrite <- app_assoc. reflexivity.
Qed.
Lemma dotted_nodot : forall segs m, dotted segs m -> Forall (fun s => ~ In dot s) segs.
Proof. induction 1; constructor; auto. Qed.

Lemma name_last : forall segs m, dotted segs m -> package_name m = last segs [].
Proof. intros segs m H. unfold package_name, init_dirs. rewrite (dirs_loop_spec _ _ H); [reflexivity|lia]. Qed.
Lemma dir_last : forall out segs m, dotted segs m -> package_dir out m = last (out :: chain out segs) [].
Proof. intros out segs m H. unfold package_dir, init_dirs. rewrite (dirs_loop_spec _ _ H); [reflexivity|lia]. Qed.
Lemma chain_last : forall segs out,
  last (out :: chain out segs) [] =
  out ++ flat_map (fun s => slash :: s) (match last segs [] with [] => removelast segs | _ => segs end).
Proof.
  induction segs as [|s segs IH]; intros out; [cbn; rewrite app_nil_r; reflexivity|].
  destruct segs as [|s' segs].
  - destruct s as [|c s]; [cbn; rewrite app_nil_r; reflexivity|].
    cbn [chain last flat_map app]. rewrite app_nil_r. reflexivity.
  - assert (E : chain out (s :: s' :: segs) = (out ++ [slash] ++ s) :: chain (out ++ [slash] ++ s) (s' :: segs))
      by (destruct s; reflexivity).
    rewrite E. transitivity (last ((out ++ [slash] ++ s) :: chain (out ++ [slash] ++ s) (s' :: segs)) []); [reflexivity|].
    rewrite IH. change (last (s :: s' :: segs) []) with (last (s' :: segs) []).
    change (removelast (s :: s' :: segs)) with (s :: removelast (s' :: segs)).
    rewrite <- !app_assoc. destruct (last (s' :: segs) []); reflexivity.
Qed.

(** A directory is made after its parent. *)
Definition parents_first (ds : list bytes) : Prop :=
  forall pre d post, ds = pre ++ d :: post -> pre = [] \/ exists q s, In q pre /\ d = q ++ [slash] ++ s.
Lemma parents_chain : forall segs out pre d post,
  out :: chain out segs = pre ++ d :: post -> pre = [] \/ exists q s, In q pre /\ d = q ++ [slash] ++ s.
Proof.
  induction segs as [|s segs IH]; intros out pre d post E.
  - destruct pre as [|p pre]; [left; reflexivity|]. cbn in E. destruct pre; discriminate E.
  - destruct pre as [|p pre]; [left; reflexivity|]. right.
    assert (C : (segs = [] /\ s = []) \/ chain out (s :: segs) = (out ++ [slash] ++ s) :: chain (out ++ [slash] ++ s) segs).
    { destruct segs as [|s' segs]; [destruct s; [left; split; reflexivity|right; reflexivity]|right; destruct s; reflexivity]. }
    destruct C as [(E1 & E2)|C].
    + subst. cbn in E. destruct pre; discriminate E.
    + rewrite C in E. injection E as Ep E. subst p.
      destruct (IH _ _ _ _ E) as [H|(q & t & Hq & Hd)].
      * subst pre. cbn in E. injection E as E _. exists out, s. split; [left; reflexivity|]. symmetry. exact E.
      * exists q, t. split; [right; exact Hq|exact Hd].
Qed.
Lemma parents_app : forall ds es, parents_first ds ->
  (forall e, In e es -> exists q s, In q ds /\ e = q ++ [slash] ++ s) -> parents_first (ds ++ es).
Proof.
  intros ds es Hd He pre d post E.
  assert (H : (exists t, ds = pre ++ d :: t) \/ (exists t, pre = ds ++ t /\ In d es)).
  { clear Hd He. revert ds E. induction pre as [|p pre IH]; intros ds E.
    - destruct ds as [|x ds]; [right; exists []; cbn in E; rewrite E; split; [reflexivity|left; reflexivity]|].
      cbn in E. injection E as E1 E2. subst x. left. exists ds. reflexivity.
    - destruct ds as [|x ds].
      + right. exists (p :: pre). cbn in E. rewrite E. split; [reflexivity|]. right. apply in_or_app. right. left. reflexivity.
      + cbn in E. injection E as E1 E2. subst x. destruct (IH ds E2) as [(t & Et)|(t & Et & Hi)].
        * left. exists t. rewrite Et. reflexivity.
        * right. exists t. rewrite Et. split; [reflexivity|exact Hi]. }
  destruct H as [(t & Et)|(t & Et & Hi)].
  - exact (Hd pre d t Et).
  - right. destruct (He d Hi) as (q & s & Hq & Es). exists q, s. split; [|exact Es].
    rewrite Et. apply in_or_app. left. exact Hq.
Qed.

(** C94: the files of a module lie in the directory of its pieces, which are made parents first. *)
Theorem C94_layout : forall out m segs svcs, dotted segs m -> last segs [] <> [] ->
  package_dir out m = out ++ flat_map (fun s => slash :: s) segs /\
  parents_first (all_dirs out m svcs) /\ In (package_dir out m) (all_dirs out m svcs).
Proof.
  intros out m segs svcs H Hl.
  assert (E : fst (fst (init_dirs out m)) = out :: chain out segs).
  { unfold init_dirs. rewrite (dirs_loop_spec _ _ H); [reflexivity|lia]. }
  assert (Hi : In (package_dir out m) (out :: chain out segs)).
  { rewrite (dir_last _ _ _ H). generalize (chain out segs). intros l.
    rewrite (app_removelast_last [] (l := out :: l)) at 2 by discriminate.
    apply in_or_app. right. left. reflexivity. }
  split; [|split].
  - rewrite (dir_last _ _ _ H), chain_last. destruct (last segs []); [contradiction Hl; reflexivity|reflexivity].
  - unfold all_dirs. rewrite E. apply parents_app; [exact (parents_chain segs out)|].
    intros e He. apply in_map_iff in He. destruct He as (s & Es & _). exists (package_dir out m), s.
    split; [exact Hi|symmetry; exact Es].
  - unfold all_dirs. rewrite E. apply in_or_app. left. exact Hi.
Qed.
Print Assumptions C94_layout.
(** The package clause names the last piece, and is valid exactly if that is a name for a package. *)
Theorem C94_name_iff : forall namespace name m, m = real_module namespace name ->
  (package_name_ok (package_name m) <->
   exists seg, (m = seg \/ exists pre, m = pre ++ dot :: seg) /\ ~ In dot seg /\ package_name_ok seg).
Proof.
  intros namespace name m _. destruct (dotted_total m) as (segs & H).
  destruct (dotted_last _ _ H) as (Hn & Hc). rewrite (name_last _ _ H). split.
  - intros Hok. exists (last segs []). split; [|split; assumption].
    destruct Hc as [(E & _)|Hc]; [left; exact E|right; exact Hc].
  - intros (seg & Hs & Hd & Hok). assert (E : last segs [] = seg); [|rewrite E; exact Hok].
    assert (U : forall p q a b, ~ In dot a -> ~ In dot b -> p ++ dot :: a = q ++ dot :: b -> a = b).
    { induction p as [|x p IH]; intros q a b Ha Hb E; destruct q as [|y q]; cbn in E.
      - injection E as E. exact E.
      - injection E as E1 E2. exfalso. apply Ha. rewrite E2. apply in_or_app. right. left. reflexivity.
      - injection E as E1 E2. exfalso. apply Hb. rewrite <- E2. apply in_or_app. right. left. reflexivity.
      - injection E as E1 E2. exact (IH q a b Ha Hb E2). }
    destruct Hc as [(E & _)|(pre & E)]; destruct Hs as [Hs|(pre' & Hs)].
    + rewrite <- E. exact Hs.
    + exfalso. apply Hn. rewrite <- E, Hs. apply in_or_app. right. left. reflexivity.
    + exfalso. apply Hd. rewrite <- Hs, E. apply in_or_app. right. left. reflexivity.
    + apply (U pre pre'); [exact Hn|exact Hd|]. rewrite <- E. exact Hs.
Qed.
Print Assumptions C94_name_iff.
Lemma not_ok_char : forall n c, In c n -> ~ id_char c -> ~ package_name_ok n.
Proof.
  intros n c Hi Hc (H & _). destruct n as [|a n]; [destruct Hi|]. destruct H as (Ha & Hn).
  destruct Hi as [E|Hi]; [subst; apply Hc; left; exact Ha|].
  apply Hc. rewrite Forall_forall in Hn. exact (Hn c Hi).
Qed.
(** IDL files my-service.thrift without a namespace; namespaces go a. and a.type. *)
Theorem C94_refuted :
  ~ package_name_ok (package_name (real_module [] (lit "my-service"))) /\
  package_name (real_module (lit "a.") (lit "f")) = [] /\ ~ package_name_ok [] /\
  ~ package_name_ok (package_name (real_module (lit "a.type") (lit "f"))).
Proof.
  split; [|split; [|split]].
  - apply (not_ok_char _ 45); [vm_compute; auto|]. unfold id_char, id_start, letter. lia.
  - vm_compute. reflexivity.
  - intros (H & _). exact H.
  - intros (_ & H & _). apply H. vm_compute. tauto.
Qed.
Print Assumptions C94_refuted.
Example C94_ex :
  dotted [lit "com"; lit "shop"] (lit "com.shop") /\
  package_dir (lit "gen-go") (lit "com.shop") = lit "gen-go/com/shop" /\
  package_name (lit "com.shop") = lit "shop" /\ package_name_ok (lit "shop") /\
  all_dirs (lit "gen-go") (lit "com.shop") [lit "Cart"] =
    [lit "gen-go"; lit "gen-go/com"; lit "gen-go/com/shop"; lit "gen-go/com/shop/Cart"].
Proof.
  split; [|split; [vm_compute; reflexivity|split; [vm_compute; reflexivity|split; [|vm_compute; reflexivity]]]].
  - apply (dotted_more (lit "com") [lit "shop"] (lit "shop")); [vm_compute; intuition discriminate|].
    apply dotted_one. vm_compute. intuition discriminate.
  - split; [idt|split; [vm_compute; intuition discriminate|vm_compute; discriminate]].
Qed.

(** ** Files *)
Lemma ident_no : forall s c, ident s -> ~ id_char c -> ~ In c s.
Proof.
  intros s c H Hc Hi. destruct s as [|a s]; [destruct Hi|]. destruct H as (Ha & Hn).
  destruct Hi as [E|Hi]; [subst; apply Hc; left; exact Ha|].
  apply Hc. rewrite Forall_forall in Hn. exact (Hn c Hi).
Qed.
Lemma split_at : forall (c : Z) (a b p q : bytes), ~ In c a -> ~ In c b -> a ++ c :: p = b ++ c :: q -> a = b /\ p = q.
Proof.
  intros c. induction a as [|x a IH]; intros b p q Ha Hb E; destruct b as [|y b]; cbn in E.
  - injection E as E. split; [reflexivity|exact E].
  - injection E as E1 E2. exfalso. apply Hb. left. symmetry. exact E1.
  - injection E as E1 E2. exfalso. apply Ha. left. exact E1.
  - injection E as E1 E2. subst y. destruct (IH b p q) as (E3 & E4); [| |exact E2|].
    + intros H. apply Ha. right. exact H.
    + intros H. apply Hb. right. exact H.
    + subst. split; reflexivity.
Qed.
Lemma not_id_slash : ~ id_char slash. Proof. unfold id_char, id_start, letter, slash. lia. Qed.
Lemma not_id_dot : ~ id_char dot. Proof. unfold id_char, id_start, letter, dot. lia. Qed.
Lemma service_path_no_slash : forall s, ident s -> ~ In slash (service_path s).
Proof.
  intros s H Hi. apply in_app_or in Hi. destruct Hi as [Hi|Hi]; [exact (ident_no _ _ H not_id_slash Hi)|].
  vm_compute in Hi. intuition discriminate.
Qed.
Lemma service_inj : forall s t, service_path s = service_path t -> s = t.
Proof. intros s t H. exact (app_inv_tail _ _ _ H). Qed.
Lemma remote_inj : forall s t, ident s -> ident t -> remote_path s = remote_path t -> s = t.
Proof.
  intros s t Hs Ht H. unfold remote_path in H. cbn [app] in H.
  exact (proj1 (split_at slash s t _ _ (ident_no _ _ Hs not_id_slash) (ident_no _ _ Ht not_id_slash) H)).
Qed.
Lemma remote_slash : forall s, In slash (remote_path s).
Proof. intros s. apply in_or_app. right. left. reflexivity. Qed.

(** C95: two files of a program have the same path exactly if two services have one name, or one is
    called ttypes. *)
Theorem C95_distinct_iff : forall svcs, Forall ident svcs ->
  (NoDup (paths svcs) <-> NoDup svcs /\ ~ In (lit "ttypes") svcs).
Proof.
  intros svcs Hid. unfold paths. rewrite NoDup_cons_iff.
  assert (Ht : In types_path (flat_map (fun s => [service_path s; remote_path s]) svcs) <-> In (lit "ttypes") svcs).
  { rewrite in_flat_map. split.
    - intros (s & Hs & [E|[E|[]]]).
      + change types_path with (service_path (lit "ttypes")) in E. apply service_inj in E. subst s. exact Hs.
      + exfalso. assert (H : In slash types_path) by (rewrite <- E; apply remote_slash).
        vm_compute in H. intuition discriminate.
    - intros H. exists (lit "ttypes"). split; [exact H|]. left. reflexivity. }
  rewrite Ht. clear Ht.
  assert (Hn : NoDup (flat_map (fun s => [service_path s; remote_path s]) svcs) <-> NoDup svcs).
  { induction Hid as [|s svcs Hs Hid IH]; [split; constructor|]. cbn [flat_map app].
    rewrite !NoDup_cons_iff, IH.
    assert (I1 : In (service_path s) (remote_path s :: flat_map (fun s => [service_path s; remote_path s]) svcs) <-> In s svcs).
    { split.
      - intros [E|H]; [exfalso; apply (service_path_no_slash s Hs); rewrite <- E; apply remote_slash|].
        apply in_flat_map in H. destruct H as (t & Ht & [E|[E|[]]]).
        + apply service_inj in E. subst t. exact Ht.
        + exfalso. apply (service_path_no_slash s Hs). rewrite <- E. apply remote_slash.
      - intros H. right. apply in_flat_map. exists s. split; [exact H|]. left. reflexivity. }
    assert (I2 : In (remote_path s) (flat_map (fun s => [service_path s; remote_path s]) svcs) <-> In s svcs).
    { rewrite Forall_forall in Hid. split.
      - intros H. apply in_flat_map in H. destruct H as (t & Ht & [E|[E|[]]]).
        + exfalso. apply (service_path_no_slash t (Hid t Ht)). rewrite E. apply remote_slash.
        + apply (remote_inj t s (Hid t Ht) Hs) in E. subst t. exact Ht.
      - intros H. apply in_flat_map. exists s. split; [exact H|]. right. left. reflexivity. }
    rewrite I1, I2. tauto. }
  rewrite Hn. tauto.
Qed.
Print Assumptions C95_distinct_iff.
Theorem C95_distinct_refuted : exists svcs, Forall ident svcs /\ NoDup svcs /\ ~ NoDup (paths svcs).
Proof.
  exists [lit "ttypes"]. assert (H : Forall ident [lit "ttypes"]) by (constructor; [idt|constructor]).
  split; [exact H|split; [constructor; [intros []|constructor]|]].
  rewrite (C95_distinct_iff _ H). intros (_ & Hn). apply Hn. left. reflexivity.
Qed.
Print Assumptions C95_distinct_refuted.

Lemma pieces_total : forall s, exists l, pieces l s.
Proof.
  induction s as [|c m (segs & IH)].
  - exists [[]]. apply pieces_one. intros [].
  - destruct (Z.eq_dec c 95) as [E|E].
    + exists ([] :: segs). subst c. apply (pieces_more [] segs m); [intros []|exact IH].
    + inversion IH as [s Hs|s segs' m' Hs Hd]; subst.
      * exists [c :: m]. apply pieces_one. intros [H|H]; [exact (E H)|exact (Hs H)].
      * exists ((c :: s) :: segs'). apply (pieces_more (c :: s) segs' m'); [|exact Hd].
        intros [H|H]; [exact (E H)|exact (Hs H)].
Qed.
Lemma pieces_uniq : forall l s, pieces l s -> forall l', pieces l' s -> l = l'.
Proof.
  induction 1 as [s Hs|s l m Hs Hp IH]; intros l' H'; inversion H' as [t Ht E1 E2|t l2 m2 Ht Hp2 E1 E2]; subst.
  - reflexivity.
  - exfalso. apply Hs. apply in_or_app. right. left. reflexivity.
  - exfalso. apply Ht. apply in_or_app. right. left. reflexivity.
  - destruct (split_at 95 _ _ _ _ Ht Hs E2) as (E3 & E4). subst. rewrite (IH l2 Hp2). reflexivity.
Qed.
(** The last piece stands behind the last underscore. *)
Lemma pieces_last : forall l s, pieces l s -> forall pre a, l = pre ++ [a] -> pre <> [] ->
  exists b, s = b ++ 95 :: a.
Proof.
  induction 1 as [s Hs|s l m Hs Hp IH]; intros pre a E Hne.
  - destruct pre as [|p pre]; [contradiction Hne; reflexivity|]. destruct pre; discriminate E.
  - destruct pre as [|p pre]; [contradiction Hne; reflexivity|]. cbn in E. injection E as E1 E2. subst p.
    destruct pre as [|q pre].
    + cbn in E2. subst l. inversion Hp; subst; [|match goal with H : pieces [] _ |- _ => inversion H end].
      exists s. reflexivity.
    + destruct (IH (q :: pre) a E2) as (b & Eb); [discriminate|]. exists (s ++ 95 :: b).
      rewrite Eb. rewrite <- app_assoc. reflexivity.
Qed.
Lemma pieces_behind : forall b a, ~ In 95 a -> exists pre, pieces (pre ++ [a]) (b ++ 95 :: a) /\ pre <> [].
Proof.
  induction b as [|c b IH]; intros a Ha.
  - exists [[]]. split; [|discriminate]. apply (pieces_more [] [a] a); [intros []|]. apply pieces_one. exact Ha.
  - destruct (IH a Ha) as (pre & Hp & Hne). cbn [app]. destruct (Z.eq_dec c 95) as [E|E].
    + exists ([] :: pre). split; [|discriminate]. subst c. apply (pieces_more [] (pre ++ [a])); [intros []|exact Hp].
    + destruct pre as [|p pre]; [contradiction Hne; reflexivity|].
      exists ((c :: p) :: pre). split; [|discriminate]. cbn [app] in Hp.
      inversion Hp as [t Ht E1 E2|t l2 m2 Ht Hp2 E1 E2]; subst; [destruct pre; discriminate|].
      assert (Hg : pieces ((c :: p) :: pre ++ [a]) (c :: (p ++ 95 :: m2))).
      { apply (pieces_more (c :: p) (pre ++ [a]) m2); [|exact Hp2].
        intros [H|H]; [exact (E H)|exact (Ht H)]. }
      exact Hg.
Qed.

(** C96: the file of a service is part of the package on every platform exactly if its name does not
    begin with an underscore and what follows its last one is neither test nor a platform. *)
Theorem C96_built_iff : forall koses karches s, ident s ->
  ((forall os arch, in_build koses karches os arch s) <->
   ~ (exists r, s = 95 :: r) /\
   forall b a, s = b ++ 95 :: a -> ~ In 95 a -> ~ In a (lit "test" :: koses ++ karches)).
Proof.
  intros koses karches s _. split.
  - intros H. split; [exact (proj1 (H [] []))|].
    intros b a E Ha [Hi|Hi].
    + destruct (H [] []) as (_ & Ht & _). apply Ht. exists b. rewrite E, <- Hi. reflexivity.
    + destruct (pieces_behind b a Ha) as (pre & Hp & Hne). rewrite <- E in Hp.
      apply in_app_or in Hi. destruct Hi as [Hi|Hi].
      * destruct (H (0 :: a) []) as (_ & _ & Hq). destruct (Hq pre a Hp Hne) as (Hk & _).
        specialize (Hk Hi). apply (f_equal (@List.length Z)) in Hk. cbn in Hk. lia.
      * destruct (H [] (0 :: a)) as (_ & _ & Hq). destruct (Hq pre a Hp Hne) as (_ & Hk).
        destruct (Hk Hi) as (Hk' & _). apply (f_equal (@List.length Z)) in Hk'. cbn in Hk'. lia.
  - intros (H1 & H2) os arch. split; [exact H1|split].
    + intros (b & E). change (lit "_test") with (95 :: lit "test") in E.
      apply (H2 b (lit "test") E); [vm_compute; intuition discriminate|left; reflexivity].
    + intros pre a Hp Hne. destruct (pieces_last _ _ Hp pre a eq_refl Hne) as (b & E).
      assert (Ha : ~ In 95 a).
      { clear - Hp. remember (pre ++ [a]) as l eqn:El. revert pre El.
        induction Hp as [t Ht|t l m Ht Hp IH]; intros pre El.
        - destruct pre as [|p pre]; [cbn in El; injection El as El; subst; exact Ht|destruct pre; discriminate El].
        - destruct pre as [|p pre]; cbn in El; injection El as E1 E2; [subst; inversion Hp|].
          exact (IH pre E2). }
      specialize (H2 b a E Ha). split.
      * intros Hi. exfalso. apply H2. right. apply in_or_app. left. exact Hi.
      * intros Hi. exfalso. apply H2. right. apply in_or_app. right. exact Hi.
Qed.
Print Assumptions C96_built_iff.
(** A service called mail_test, or _mail, is left out of its package everywhere. *)
Theorem C96_built_refuted : exists s t, ident s /\ ident t /\ forall koses karches os arch,
  ~ in_build koses karches os arch s /\ ~ in_build koses karches os arch t.
Proof.
  exists (lit "mail_test"), (lit "_mail"). split; [idt|split; [idt|]]. intros koses karches os arch. split.
  - intros (_ & H & _). apply H. exists (lit "mail"). reflexivity.
  - intros (H & _). apply H. exists (lit "mail"). reflexivity.
Qed.
Print Assumptions C96_built_refuted.
Example C96_ex : ident (lit "mail_server") /\
  forall os arch, in_build [lit "linux"; lit "windows"] [lit "amd64"; lit "arm"] os arch (lit "mail_server").
Proof.
  assert (Hi : ident (lit "mail_server")) by idt. split; [exact Hi|].
  apply (C96_built_iff _ _ _ Hi). split; [intros (r & E); vm_compute in E; discriminate E|].
  intros b a E Ha.
  assert (Hs : lit "mail_server" = lit "mail" ++ 95 :: lit "server") by reflexivity.
  destruct (split_at 95 (rev a) (rev (lit "server")) (rev b) (rev (lit "mail"))) as (E1 & _).
  - rewrite <- in_rev. exact Ha.
  - vm_compute. intuition discriminate.
  - rewrite E in Hs. apply (f_equal (@rev Z)) in Hs. rewrite !rev_app_distr in Hs. cbn [rev] in Hs.
    rewrite <- !app_assoc in Hs. exact Hs.
  - apply (f_equal (@rev Z)) in E1. rewrite !rev_involutive in E1. subst a. vm_compute. intuition discriminate.
Qed.
Example C95_ex : Forall ident [lit "Cart"; lit "Mail"] /\ NoDup (paths [lit "Cart"; lit "Mail"]) /\
  paths [lit "Cart"; lit "Mail"] =
    map lit ["ttypes.go"; "Cart.go"; "Cart/Cart-remote.go"; "Mail.go"; "Mail/Mail-remote.go"]%string.
Proof.
  assert (Hi : Forall ident [lit "Cart"; lit "Mail"]) by (constructor; [idt|constructor; [idt|constructor]]).
  split; [exact Hi|split; [|vm_compute; reflexivity]]. apply (C95_distinct_iff _ Hi). split.
  - constructor; [vm_compute; intuition discriminate|constructor; [intros []|constructor]].
  - vm_compute. intuition discriminate.
Qed.

(** ** Imports of generated packages *)
Lemma flat_no_dot : forall segs, Forall (fun s => ~ In dot s) segs -> ~ In dot (flat_map (fun s => slash :: s) segs).
Proof.
  intros segs H Hi. apply in_flat_map in Hi. destruct Hi as (s & Hs & [E|E]); [discriminate E|].
  rewrite Forall_forall in H. exact (H s Hs E).
Qed.
Lemma forall_removelast : forall (P : bytes -> Prop) l, Forall P l -> Forall P (removelast l).
Proof.
  intros P l H. induction H as [|a l Ha Hl IH]; [constructor|].
  destruct l as [|b l]; [constructor|]. constructor; [exact Ha|exact IH].
Qed.
Lemma dir_no_dot : forall out m, exists t, package_dir out m = out ++ t /\ ~ In dot t.
Proof.
  intros out m. destruct (dotted_total m) as (segs & H). rewrite (dir_last _ _ _ H), chain_last.
  eexists. split; [reflexivity|]. apply flat_no_dot. pose proof (dotted_nodot _ _ H) as Hf.
  destruct (last segs []); [apply forall_removelast|]; exact Hf.
Qed.
Lemma remote_flat : forall segs m, dotted segs m ->
  slash :: remote_import m = flat_map (fun s => slash :: s) segs.
Proof.
  assert (Hid : forall s, ~ In dot s -> map (fun c => if c =? dot then slash else c) s = s).
  { induction s as [|c s IH]; intros H; [reflexivity|]. cbn [map].
    destruct (Z.eqb_spec c dot) as [E|E]; [exfalso; apply H; left; exact E|].
    rewrite IH; [reflexivity|]. intros Hi. apply H. right. exact Hi. }
  unfold remote_import. induction 1 as [s Hs|s segs m Hs Hd IH]; cbn [flat_map].
  - rewrite app_nil_r, (Hid s Hs). reflexivity.
  - rewrite map_app, (Hid s Hs). cbn [map]. rewrite Z.eqb_refl, IH. reflexivity.
Qed.

(** C97: the import of an included or extended program, and the name before a dot, designate its
    package exactly if its module has no dot. *)
Theorem C97_include_iff : forall out m, m <> [] ->
  (import_finds out (include_import m) (package_dir out m) /\ qualifier m = package_name m <-> ~ In dot m).
Proof.
  intros out m Hne. split.
  - intros (H & _) Hd. destruct (dir_no_dot out m) as (t & Et & Hn).
    unfold import_finds, include_import in H. rewrite Et in H. apply app_inv_head in H.
    apply Hn. rewrite <- H. apply in_or_app. right. exact Hd.
  - intros Hd. pose proof (dotted_one m Hd) as H.
    unfold qualifier. rewrite (name_last _ _ H). split; [|reflexivity].
    unfold import_finds. rewrite (dir_last out _ _ H), chain_last. cbn [last].
    destruct m as [|c m]; [contradiction Hne; reflexivity|].
    cbn [flat_map]. rewrite app_nil_r. reflexivity.
Qed.
Print Assumptions C97_include_iff.
Theorem C97_include_refuted : exists out m,
  ~ import_finds out (include_import m) (package_dir out m) /\ qualifier m <> package_name m.
Proof.
  exists (lit "src"), (lit "com.shop"). split; [vm_compute|vm_compute]; discriminate.
Qed.
Print Assumptions C97_include_refuted.
(** The import of the remote client finds the package for every module but those that end in a dot. *)
Theorem C97_remote_iff : forall out m, m <> [] ->
  (import_finds out (remote_import m) (package_dir out m) <-> ~ ends_with [dot] m).
Proof.
  intros out m Hne. destruct (dotted_total m) as (segs & H).
  assert (El : @last bytes segs [] = [] <-> ends_with [dot] m).
  { destruct (dotted_last _ _ H) as (Hn & [(E & _)|(pre & E)]).
    - split; [intros E2; rewrite E2 in E; contradiction Hne|].
      intros (a & Ea). exfalso. apply Hn. rewrite <- E, Ea. apply in_or_app. right. left. reflexivity.
    - split; [intros E2; rewrite E2 in E; exists pre; exact E|].
      intros (a & Ea). destruct (last segs []) as [|c r] eqn:Er; [reflexivity|]. exfalso.
      destruct (exists_last (l := c :: r)) as (r' & z & Ez); [discriminate|].
      rewrite Ea, Ez in E. change (pre ++ dot :: r' ++ [z]) with (pre ++ (dot :: r') ++ [z]) in E.
      rewrite app_assoc in E. apply app_inj_tail in E. destruct E as (_ & E).
      apply Hn. rewrite Ez. apply in_or_app. right. left. symmetry. exact E. }
  unfold import_finds. rewrite (dir_last out _ _ H), chain_last, <- El.
  change (out ++ [slash] ++ remote_import m) with (out ++ (slash :: remote_import m)).
  rewrite (remote_flat _ _ H). split.
  - intros E Hl. rewrite Hl in E. apply app_inv_head in E.
    destruct (dotted_cons _ _ H) as (s & segs' & Es).
    assert (Hs : segs <> []) by (rewrite Es; discriminate).
    pose proof (app_removelast_last ([] : bytes) Hs) as Er. unfold bytes in *. rewrite Hl in Er.
    rewrite Er in E at 1. rewrite flat_map_app in E.
    apply (f_equal (@List.length Z)) in E. rewrite app_length in E. cbn in E. lia.
  - intros Hl. destruct (last segs []); [contradiction Hl; reflexivity|reflexivity].
Qed.
Print Assumptions C97_remote_iff.
Example C97_ex : ~ In dot (lit "shop") /\ ~ ends_with [dot] (lit "com.shop") /\
  import_finds (lit "src") (include_import (lit "shop")) (package_dir (lit "src") (lit "shop")) /\
  import_finds (lit "src") (remote_import (lit "com.shop")) (package_dir (lit "src") (lit "com.shop")).
Proof.
  split; [vm_compute; intuition discriminate|split; [|split; vm_compute; reflexivity]].
  intros (a & E). change (lit "com.shop") with (lit "com.sho" ++ [112]) in E.
  apply app_inj_tail in E. destruct E as (_ & E). discriminate E.
Qed.

(** ** Comments *)
Notation ce := comment_end.
Lemma occ_nil : ~ occurs ce [].
Proof. intros (a & b & E). destruct a; discriminate E. Qed.
Lemma occ_cons : forall c s, occurs ce (c :: s) <-> (c = 42 /\ exists r, s = 47 :: r) \/ occurs ce s.
Proof.
  intros c s. split.
  - intros (a & b & E). destruct a as [|x a]; cbn in E; injection E as E1 E2.
    + left. split; [exact E1|]. exists b. exact E2.
    + right. exists a, b. exact E2.
  - intros [(E & r & Er)|(a & b & E)].
    + exists [], r. subst. reflexivity.
    + exists (c :: a), b. rewrite E. reflexivity.
Qed.
(** A character that is neither star nor slash separates. *)
Lemma occ_sep : forall a c b, c <> 42 -> c <> 47 -> (occurs ce (a ++ c :: b) <-> occurs ce a \/ occurs ce b).
Proof.
  intros a c b H1 H2. induction a as [|x a IH]; cbn [app].
  - rewrite occ_cons. split; [intros [(E & _)|H]; [contradiction|right; exact H]|].
    intros [H|H]; [contradiction (occ_nil H)|right; exact H].
  - rewrite !occ_cons, IH.
    assert (E : (exists r, a ++ c :: b = 47 :: r) <-> exists r, a = 47 :: r).
    { destruct a as [|y a]; cbn [app].
      - split; intros (r & E); [injection E as E _; contradiction|discriminate E].
      - split; intros (r & E); injection E as E _; subst y; eexists; reflexivity. }
    rewrite E. tauto.
Qed.
Lemma lines_cons : forall s, exists l ls, lines s = l :: ls.
Proof.
  induction s as [|c s (l & ls & E)]; cbn [lines]; [eexists; eexists; reflexivity|].
  destruct (c =? 10); [eexists; eexists; reflexivity|]. rewrite E. eexists; eexists; reflexivity.
Qed.
Lemma lines_head : forall s l ls, lines s = l :: ls -> (exists r, s = 47 :: r) <-> (exists r, l = 47 :: r).
Proof.
  intros s l ls E. destruct s as [|c s]; cbn [lines] in E.
  - injection E as E1 _. subst l. split; intros (r & H); discriminate H.
  - destruct (lines_cons s) as (l2 & ls2 & E2). rewrite E2 in E. destruct (Z.eqb_spec c 10) as [Ec|Ec].
    + injection E as E1 _. subst. split; intros (r & H); discriminate H.
    + injection E as E1 _. subst l. split; intros (r & H); injection H as H _; subst c; eexists; reflexivity.
Qed.
Lemma lines_occ : forall s, occurs ce s <-> exists l, In l (lines s) /\ occurs ce l.
Proof.
  induction s as [|c s IH]; cbn [lines].
  - split; [intros H; contradiction (occ_nil H)|]. intros (l & [E|[]] & H). subst l. exact H.
  - rewrite occ_cons, IH. destruct (lines_cons s) as (l2 & ls2 & E2). destruct (Z.eqb_spec c 10) as [Ec|Ec].
    + split.
      * intros [(E & _)|(l & Hl & H)]; [lia|]. exists l. split; [right; exact Hl|exact H].
      * intros (l & [E|Hl] & H); [subst l; contradiction (occ_nil H)|]. right. exists l. split; assumption.
    + rewrite E2. pose proof (lines_head s l2 ls2 E2) as Hh. split.
      * intros [(E & H)|(l & [E|Hl] & H)].
        -- exists (c :: l2). split; [left; reflexivity|]. rewrite occ_cons. left. split; [exact E|]. apply Hh. exact H.
        -- subst l. exists (c :: l2). split; [left; reflexivity|]. rewrite occ_cons. right. exact H.
        -- exists l. split; [right; exact Hl|exact H].
      * intros (l & [E|Hl] & H).
        -- subst l. rewrite occ_cons in H. destruct H as [(E & H)|H].
           ++ left. split; [exact E|]. apply Hh. exact H.
           ++ right. exists l2. split; [left; reflexivity|exact H].
        -- right. exists l. split; [right; exact Hl|exact H].
Qed.
Lemma ends_cons : forall c a, a <> [] -> (ends_with [10] (c :: a) <-> ends_with [10] a).
Proof.
  intros c a Ha. split.
  - intros (b & E). destruct b as [|x b]; cbn in E; injection E as E1 E2; [contradiction|]. exists b. exact E2.
  - intros (b & E). exists (c :: b). rewrite E. reflexivity.
Qed.
Lemma lines_begin : forall s, line_begins 47 s <-> exists l, In l (lines s) /\ exists r, l = 47 :: r.
Proof.
  induction s as [|c s IH]; cbn [lines].
  - split; [intros (a & b & E & _); destruct a; discriminate E|].
    intros (l & [E|[]] & (r & Hr)). subst. discriminate.
  - assert (Hc : line_begins 47 (c :: s) <-> c = 47 \/ (c = 10 /\ exists r, s = 47 :: r) \/
        (exists x a b, s = x :: a ++ 47 :: b /\ ends_with [10] (x :: a))).
    { split.
      - intros (a & b & E & He). destruct a as [|x a]; cbn in E; injection E as E1 E2; [left; exact E1|].
        subst x. destruct He as [He|He]; [discriminate He|]. right. destruct a as [|x a].
        + left. destruct He as (d & Ed). destruct d as [|y d]; [|destruct d; discriminate Ed].
          injection Ed as Ed. subst c. split; [reflexivity|]. exists b. exact E2.
        + right. exists x, a, b. split; [exact E2|]. apply (ends_cons c); [discriminate|exact He].
      - intros [E|[(E & r & Er)|(x & a & b & E & He)]].
        + exists [], s. subst c. split; [reflexivity|left; reflexivity].
        + exists [10], r. subst. split; [reflexivity|]. right. exists []. reflexivity.
        + exists (c :: x :: a), b. rewrite E. split; [reflexivity|]. right. apply ends_cons; [discriminate|exact He]. }
    assert (Hs : line_begins 47 s <-> (exists r, s = 47 :: r) \/
        (exists x a b, s = x :: a ++ 47 :: b /\ ends_with [10] (x :: a))).
    { split.
      - intros (a & b & E & He). destruct a as [|x a]; [left; exists b; exact E|].
        destruct He as [He|He]; [discriminate He|]. right. exists x, a, b. split; assumption.
      - intros [(r & E)|(x & a & b & E & He)].
        + exists [], r. split; [exact E|left; reflexivity].
        + exists (x :: a), b. split; [exact E|right; exact He]. }
    rewrite Hc. destruct (lines_cons s) as (l2 & ls2 & E2). pose proof (lines_head s l2 ls2 E2) as Hh.
    destruct (Z.eqb_spec c 10) as [Ec|Ec].
    + split.
      * intros [H|H]; [lia|]. assert (Hb : line_begins 47 s) by (apply Hs; destruct H as [(_ & H)|H]; [left|right]; exact H).
        apply IH in Hb. destruct Hb as (l & Hl & Hr). exists l. split; [right; exact Hl|exact Hr].
      * intros (l & [E|Hl] & Hr); [destruct Hr as (r & Hr); subst; discriminate Hr|].
        right. assert (Hb : line_begins 47 s) by (apply IH; exists l; split; assumption).
        apply Hs in Hb. destruct Hb as [Hb|Hb]; [left; split; assumption|right; exact Hb].
    + rewrite E2. split.
      * intros [E|[(E & _)|H]]; [|contradiction|].
        -- exists (c :: l2). split; [left; reflexivity|]. exists l2. rewrite E. reflexivity.
        -- (* a line behind the first *)
           destruct H as (x & a & b & E & (d & Ed)).
           assert (Hl : exists l, In l ls2 /\ exists r, l = 47 :: r).
           { clear - E Ed E2. assert (E3 : s = d ++ 10 :: 47 :: b).
             { rewrite E. change (x :: a ++ 47 :: b) with ((x :: a) ++ 47 :: b). rewrite Ed, <- app_assoc. reflexivity. }
             clear E Ed. revert s l2 ls2 E2 E3. induction d as [|y d IH]; intros s l2 ls2 E2 E3; subst s.
             - cbn [app lines] in E2. rewrite Z.eqb_refl in E2. injection E2 as _ E2.
               change (47 =? 10) with false in E2. cbn iota in E2.
               destruct (lines_cons b) as (l3 & ls3 & E3). rewrite E3 in E2. subst ls2.
               exists (47 :: l3). split; [left; reflexivity|]. exists l3. reflexivity.
             - cbn [app lines] in E2. destruct (lines_cons (d ++ 10 :: 47 :: b)) as (l3 & ls3 & E3).
               rewrite E3 in E2. destruct (IH _ l3 ls3 E3 eq_refl) as (l & Hl & Hr).
               destruct (y =? 10); injection E2 as _ E2; subst ls2.
               + exists l. split; [right; exact Hl|exact Hr].
               + exists l. split; assumption. }
           destruct Hl as (l & Hl & Hr). exists l. split; [right; exact Hl|exact Hr].
      * intros (l & [E|Hl] & (r & Hr)).
        -- subst l. injection Hr as Hr _. left. exact Hr.
        -- right. right.
           clear - E2 Hl Hr. subst l. revert l2 ls2 E2 Hl. induction s as [|y s IH]; intros l2 ls2 E2 Hl; cbn [lines] in E2.
           ++ injection E2 as _ E2. subst ls2. destruct Hl.
           ++ destruct (lines_cons s) as (l3 & ls3 & E3). destruct (Z.eqb_spec y 10) as [Ey|Ey].
              ** injection E2 as _ E2. subst ls2. rewrite E3 in Hl. destruct Hl as [El|Hl].
                 --- assert (Hh : exists r, s = 47 :: r) by (apply (lines_head s l3 ls3 E3); exists r; exact El).
                     destruct Hh as (r' & Es). exists y, [], r'. rewrite Es. split; [reflexivity|].
                     exists []. rewrite Ey. reflexivity.
                 --- destruct (IH l3 ls3 E3 Hl) as (x & a & b & Es & He).
                     exists y, (x :: a), b. rewrite Es. split; [reflexivity|]. apply ends_cons; [discriminate|exact He].
              ** rewrite E3 in E2. injection E2 as _ E2. subst ls2.
                 destruct (IH l3 ls3 E3 Hl) as (x & a & b & Es & He).
                 exists y, (x :: a), b. rewrite Es. split; [reflexivity|]. apply ends_cons; [discriminate|exact He].
Qed.
Lemma drop_in : forall ls l, l <> [] -> (In l (drop_last_empty ls) <-> In l ls).
Proof.
  induction ls as [|k ls IH]; intros l Hl; [reflexivity|].
  destruct ls as [|k2 ls].
  - cbn [drop_last_empty]. destruct k as [|z k]; [|reflexivity].
    split; [intros []|]. intros [E|[]]. subst. contradiction Hl. reflexivity.
  - change (drop_last_empty (k :: k2 :: ls)) with (k :: drop_last_empty (k2 :: ls)).
    cbn [In]. rewrite (IH l Hl). reflexivity.
Qed.
Lemma occ_not_nil : forall l, occurs ce l -> l <> [].
Proof. intros l H E. subst. exact (occ_nil H). Qed.
(** The text between the first two characters and the closing. *)
Lemma one_comment_iff : forall body,
  one_comment ([47; 42] ++ body ++ ce ++ [10]) <-> ~ occurs ce body.
Proof.
  intros body. split.
  - intros (b & E & H) (x & y & Ho). apply app_inv_head in E. rewrite !app_assoc in E.
    apply app_inv_tail in E. apply app_inv_tail in E. subst b.
    specialize (H x (y ++ ce)). rewrite Ho in H.
    rewrite <- !app_assoc in H. specialize (H eq_refl). destruct y; discriminate H.
  - intros H. exists body. split; [reflexivity|]. intros a b E.
    destruct b as [|z b _] using rev_ind; [reflexivity|]. exfalso.
    change ce with ([42] ++ [47]) in E at 1. rewrite !app_assoc in E.
    apply app_inj_tail in E. destruct E as (E & _).
    destruct b as [|w b _] using rev_ind.
    + rewrite app_nil_r in E. change ce with ([42] ++ [47]) in E. rewrite app_assoc in E.
      apply app_inj_tail in E. destruct E as (_ & E). discriminate E.
    + rewrite !app_assoc in E. apply app_inj_tail in E. destruct E as (E & _).
      apply H. exists a, b. rewrite E, <- app_assoc. reflexivity.
Qed.
Lemma occ_lines : forall prefix ls b, (forall l, occurs ce (prefix ++ l) <-> occurs ce (tl prefix ++ l)) ->
  prefix = 32 :: tl prefix ->
  (occurs ce (flat_map (fun l => prefix ++ l ++ [10]) ls ++ 32 :: b) <->
   (exists l, In l ls /\ occurs ce (prefix ++ l)) \/ occurs ce b).
Proof.
  intros prefix ls b Hp He. induction ls as [|l ls IH]; cbn [flat_map app].
  - rewrite occ_cons. split; [intros [(E & _)|H]; [discriminate E|right; exact H]|].
    intros [(l & [] & _)|H]. right. exact H.
  - rewrite <- !app_assoc. rewrite (app_assoc prefix l). change ([10] ++ ?x) with (10 :: x).
    rewrite occ_sep by discriminate. rewrite IH. split.
    + intros [H|[(k & Hk & H)|H]].
      * left. exists l. split; [left; reflexivity|exact H].
      * left. exists k. split; [right; exact Hk|exact H].
      * right. exact H.
    + intros [(k & [E|Hk] & H)|H].
      * subst k. left. exact H.
      * right. left. exists k. split; assumption.
      * right. right. exact H.
Qed.
Lemma comment_lines : forall prefix text, prefix = 32 :: tl prefix ->
  (one_comment (docstring_comment s_start prefix text s_stop) <->
   ~ exists l, In l (drop_last_empty (lines text)) /\ occurs ce (prefix ++ l)).
Proof.
  intros prefix text He.
  assert (E : docstring_comment s_start prefix text s_stop =
    [47; 42] ++ ([42; 10] ++ flat_map (fun l => prefix ++ l ++ [10]) (drop_last_empty (lines text)) ++ [32]) ++ ce ++ [10]).
  { unfold docstring_comment. change s_start with ([47; 42] ++ [42; 10]). change s_stop with ([32] ++ ce ++ [10]).
    rewrite <- !app_assoc. reflexivity. }
  rewrite E, one_comment_iff. cbn [app]. rewrite occ_cons, occ_cons.
  rewrite (occ_lines prefix _ []); [| |exact He].
  - split; intros H H2; apply H.
    + right. right. left. exact H2.
    + destruct H2 as [(_ & r & H2)|[(H2 & _)|[H2|H2]]]; [discriminate H2|discriminate H2|exact H2|contradiction (occ_nil H2)].
  - intros l. rewrite He at 1. cbn [app]. rewrite occ_cons.
    split; [intros [(H & _)|H]; [discriminate H|exact H]|]. intros H. right. exact H.
Qed.

(** C98: the comment printed for a typedef, an enum or a service is one Go comment exactly if its
    text has no end of a comment in it and no line that begins with a slash. *)
Theorem C98_plain_iff : forall doc,
  one_comment (doc_plain doc) <-> ~ occurs comment_end doc /\ ~ line_begins 47 doc.
Proof.
  intros doc. unfold doc_plain. rewrite comment_lines by reflexivity.
  assert (H : (exists l, In l (drop_last_empty (lines doc)) /\ occurs ce (lit " *" ++ l)) <->
              occurs ce doc \/ line_begins 47 doc).
  { rewrite lines_occ, lines_begin. change (lit " *") with [32; 42]. cbn [app]. split.
    - intros (l & Hl & H). rewrite !occ_cons in H.
      destruct H as [(H & _)|[(_ & H)|H]]; [discriminate H| |].
      + right. exists l. split; [|exact H]. apply (drop_in (lines doc)); [|exact Hl].
        destruct H as (r & H). rewrite H. discriminate.
      + left. exists l. split; [|exact H]. apply (drop_in (lines doc)); [exact (occ_not_nil _ H)|exact Hl].
    - intros [(l & Hl & H)|(l & Hl & H)]; exists l.
      + split; [apply (drop_in (lines doc)); [exact (occ_not_nil _ H)|exact Hl]|].
        rewrite !occ_cons. right. right. exact H.
      + split; [apply (drop_in (lines doc)); [|exact Hl]; destruct H as (r & H); rewrite H; discriminate|].
        rewrite !occ_cons. right. left. split; [reflexivity|exact H]. }
  rewrite H. tauto.
Qed.
Print Assumptions C98_plain_iff.
(** The line /etc/hosts in the comment of an enum ends it. *)
Theorem C98_plain_refuted : exists doc, ~ occurs comment_end doc /\ ~ one_comment (doc_plain doc).
Proof.
  exists (lit "/etc/hosts" ++ [10]). split.
  - change (lit "/etc/hosts" ++ [10]) with [47; 101; 116; 99; 47; 104; 111; 115; 116; 115; 10].
    intros H. repeat (apply occ_cons in H; destruct H as [(H & _)|H]; [discriminate H|]). exact (occ_nil H).
  - rewrite C98_plain_iff. intros (_ & H). apply H. exists [], (lit "etc/hosts" ++ [10]).
    split; [reflexivity|left; reflexivity].
Qed.
Print Assumptions C98_plain_refuted.

Lemma name_no_occ : forall n, ident n -> ~ occurs ce n.
Proof.
  intros n H (a & b & E). apply (ident_no n 42 H); [unfold id_char, id_start, letter; lia|].
  rewrite E. apply in_or_app. right. left. reflexivity.
Qed.
Lemma occ_members : forall ms rest, Forall (fun m => ident (member_name (fst m))) ms ->
  (occurs ce (flat_map member_doc ms ++ 10 :: rest) <->
   (exists m d, In m ms /\ snd m = Some d /\ occurs ce d) \/ occurs ce rest).
Proof.
  intros ms rest H. induction H as [|(n & o) ms Hm Hms IH]; cbn [flat_map app].
  - rewrite occ_cons. split; [intros [(E & _)|H]; [discriminate E|right; exact H]|].
    intros [(m & d & [] & _)|H]. right. exact H.
  - unfold member_doc. cbn [fst snd] in *. change (lit " - ") with [32; 45; 32]. change (lit ": ") with [58; 32].
    pose proof (name_no_occ _ Hm) as Hn.
    assert (Hf : forall t, occurs ce ([32; 45; 32] ++ t) <-> occurs ce t).
    { intros t. cbn [app]. rewrite !occ_cons.
      split; [intros [(E & _)|[(E & _)|[(E & _)|H]]]; try discriminate E; exact H|tauto]. }
    (* the rest begins with a character that separates *)
    assert (Hr : forall d, occurs ce (d ++ flat_map member_doc ms ++ 10 :: rest) <->
                 occurs ce d \/ occurs ce (flat_map member_doc ms ++ 10 :: rest)).
    { intros d. destruct ms as [|(n2 & o2) ms].
      - cbn [flat_map app]. rewrite occ_sep by discriminate. rewrite occ_cons.
        split; [tauto|]. intros [H|[(E & _)|H]]; [left; exact H|discriminate E|right; exact H].
      - cbn [flat_map]. unfold member_doc at 1 3. change (lit " - ") with (32 :: [45; 32]). cbn [app].
        rewrite occ_sep by discriminate. rewrite (occ_cons 32).
        split; [tauto|]. intros [H|[(E & _)|H]]; [left; exact H|discriminate E|right; exact H]. }
    rewrite <- !app_assoc. rewrite Hf. destruct o as [d|].
    + cbn [app]. rewrite (occ_sep (member_name n) 58) by discriminate. rewrite (occ_cons 32).
      rewrite <- app_assoc || idtac. rewrite Hr, IH. split.
      * intros [H|[(E & _)|[H|[(m & d' & H1 & H2)|H]]]]; [contradiction|discriminate E| | |].
        -- left. exists (n, Some d), d. split; [left; reflexivity|split; [reflexivity|exact H]].
        -- left. exists m, d'. split; [right; exact H1|exact H2].
        -- right. exact H.
      * intros [(m & d' & [E|H1] & H2 & H3)|H].
        -- subst m. injection H2 as H2. subst d'. right. right. left. exact H3.
        -- right. right. right. left. exists m, d'. split; [exact H1|split; assumption].
        -- right. right. right. right. exact H.
    + change ([10] ++ ?x) with (10 :: x). rewrite (occ_sep (member_name n) 10) by discriminate. rewrite IH. split.
      * intros [H|[(m & d' & H1 & H2)|H]]; [contradiction| |right; exact H].
        left. exists m, d'. split; [right; exact H1|exact H2].
      * intros [(m & d' & [E|H1] & H2 & H3)|H].
        -- subst m. discriminate H2.
        -- right. left. exists m, d'. split; [exact H1|split; assumption].
        -- right. right. exact H.
Qed.
(** The comment for a struct or a function is one exactly if no text in it has an end of a comment. *)
Theorem C98_members_iff : forall doc subheader ms,
  In subheader [lit "Attributes"; lit "Parameters"] -> Forall (fun m => ident (fst m)) ms ->
  (one_comment (doc_members doc subheader ms) <->
   (forall d, doc = Some d -> ~ occurs comment_end d) /\
   forall m d, In m ms -> snd m = Some d -> ~ occurs comment_end d).
Proof.
  intros doc subheader ms Hsub Hms. unfold doc_members. rewrite comment_lines by reflexivity.
  assert (H1 : (exists l, In l (drop_last_empty (lines (doc_text doc subheader ms))) /\ occurs ce (lit " * " ++ l)) <->
               occurs ce (doc_text doc subheader ms)).
  { rewrite lines_occ. change (lit " * ") with [32; 42; 32]. cbn [app]. split.
    - intros (l & Hl & H). rewrite !occ_cons in H.
      destruct H as [(H & _)|[(_ & r & H)|[(H & _)|H]]]; [discriminate H|discriminate H|discriminate H|].
      exists l. split; [|exact H]. apply (drop_in (lines (doc_text doc subheader ms))); [exact (occ_not_nil _ H)|exact Hl].
    - intros (l & Hl & H). exists l. split; [apply drop_in; [exact (occ_not_nil _ H)|exact Hl]|].
      rewrite !occ_cons. right. right. right. exact H. }
  rewrite H1. clear H1.
  assert (Hn : Forall (fun m => ident (member_name (fst m))) ms).
  { eapply Forall_impl; [|exact Hms]. intros m Hm. exact (proj1 (C53_valid _ Hm)). }
  assert (Hs : ~ occurs ce subheader).
  { apply name_no_occ. destruct Hsub as [E|[E|[]]]; subst subheader; idt. }
  assert (H2 : occurs ce (doc_text doc subheader ms) <->
    (exists d, doc = Some d /\ occurs ce d) \/ exists m d, In m ms /\ snd m = Some d /\ occurs ce d).
  { rewrite <- (app_nil_r (doc_text doc subheader ms)). 
    assert (Hten : forall t, occurs ce (t ++ []) <-> occurs ce (t ++ [10])).
    { intros t. rewrite app_nil_r, (occ_sep t 10 []) by discriminate. split; [tauto|].
      intros [H|H]; [exact H|contradiction (occ_nil H)]. }
    rewrite Hten. unfold doc_text. destruct ms as [|m ms].
    - rewrite app_nil_r. rewrite occ_sep by discriminate. destruct doc as [d|].
      + split; [intros [H|H]; [left; exists d; split; [reflexivity|exact H]|contradiction (occ_nil H)]|].
        intros [(d' & E & H)|(m & d' & [] & _)]. injection E as E. subst d'. left. exact H.
      + split; [intros [H|H]; contradiction (occ_nil H)|].
        intros [(d' & E & H)|(m & d' & [] & _)]. discriminate E.
    - set (l := m :: ms) in *. rewrite <- !app_assoc.
      assert (Hb : occurs ce (subheader ++ [58; 10] ++ flat_map member_doc l ++ [10]) <->
                   exists m d, In m l /\ snd m = Some d /\ occurs ce d).
      { cbn [app]. rewrite occ_sep by discriminate. rewrite occ_cons, (occ_members l [] Hn). split.
        - intros [H|[(E & _)|[H|H]]]; [contradiction|discriminate E|exact H|contradiction (occ_nil H)].
        - intros H. right. right. left. exact H. }
      destruct doc as [d|].
      + change ([10] ++ ?x) with (10 :: x) at 1. rewrite (occ_sep d 10) by discriminate. rewrite Hb. split.
        * intros [H|H]; [left; exists d; split; [reflexivity|exact H]|right; exact H].
        * intros [(d' & E & H)|H]; [injection E as E; subst d'; left; exact H|right; exact H].
      + cbn [app]. rewrite Hb. split; [intros H; right; exact H|].
        intros [(d' & E & _)|H]; [discriminate E|exact H]. }
  rewrite H2. split.
  - intros H. split.
    + intros d E Ho. apply H. left. exists d. split; assumption.
    + intros m d Hm E Ho. apply H. right. exists m, d. split; [exact Hm|split; assumption].
  - intros (Ha & Hb) [(d & E & Ho)|(m & d & Hm & E & Ho)]; [exact (Ha d E Ho)|exact (Hb m d Hm E Ho)].
Qed.
Print Assumptions C98_members_iff.
Example C98_ex :
  one_comment (doc_plain (lit "Colours" ++ [10] ++ lit "see /etc" ++ [10])) /\
  doc_members (Some (lit "A car." ++ [10])) (lit "Attributes") [(lit "name", Some (lit "or" ++ [10] ++ lit "/path" ++ [10])); (lit "age", None)] =
    lit "/**" ++ [10] ++ lit " * A car." ++ [10] ++ lit " * " ++ [10] ++ lit " * Attributes:" ++ [10] ++
    lit " *  - Name: or" ++ [10] ++ lit " * /path" ++ [10] ++ lit " *  - Age" ++ [10] ++ lit " */" ++ [10] /\
  one_comment (doc_members (Some (lit "A car." ++ [10])) (lit "Attributes")
                 [(lit "name", Some (lit "or" ++ [10] ++ lit "/path" ++ [10])); (lit "age", None)]).
Proof.
  assert (No : forall s, ~ In 42 s -> ~ occurs ce s).
  { intros s H (a & b & E). apply H. rewrite E. apply in_or_app. right. left. reflexivity. }
  split; [|split; [vm_compute; reflexivity|]].
  - apply C98_plain_iff. split; [apply No; vm_compute; intuition discriminate|].
    rewrite lines_begin. intros (l & Hl & r & Hr). vm_compute in Hl.
    destruct Hl as [E|[E|[E|[]]]]; subst l; discriminate.
  - apply C98_members_iff; [left; reflexivity| |split].
    + constructor; [cbn [fst]; idt|constructor; [cbn [fst]; idt|constructor]].
    + intros d E. injection E as E. subst d. apply No. vm_compute. intuition discriminate.
    + intros m d [E|[E|[]]] E2; subst m; [|discriminate E2]. injection E2 as E2. subst d.
      apply No. vm_compute. intuition discriminate.
Qed.
