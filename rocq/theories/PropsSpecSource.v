(** C45: the source of a type or value, and the whole test. *)
From Coq Require Import String Ascii Bool List ZArith Lia.
From Verif Require Import Base EngineProofs Specifier SpecMatch.
Import ListNotations.
Open Scope Z_scope.

(** ** Specification *)

(** The name of the package with the types of a package: [@scope/name] becomes [scope__name]. *)
Definition scoped (p scope name : bstr) : Prop := p = b "@" ++ scope ++ b "/" ++ name /\ scope <> [] /\ ~ In slash scope /\ name <> [].
Definition types_name (p q : bstr) : Prop :=
  (exists scope name, scoped p scope name /\ q = scope ++ b "__" ++ name) \/ ((forall scope name, ~ scoped p scope name) /\ q = p).
(** A declaration stands in a source file. *)
Definition rooted (d : decl) : Prop := In ASource (d_ancestors d).
(** Its nearest enclosing [module], leaving [namespace]s aside, is [declare module "p"]. *)
Definition in_module (d : decl) (p : bstr) : Prop :=
  exists pre rest, d_ancestors d = pre ++ AModule p true :: rest /\ Forall (fun a => a = ANamespace \/ a = AOther) pre.
Section Source.
Variable package_json : bstr -> option bstr.
Variable cwd : bstr.
Variable absolute : bstr -> bstr -> bstr.
(** Its file belongs to the package or to its types. *)
Definition in_package_file (d : decl) (p : bstr) : Prop :=
  p <> [] /\ f_external (d_file d) = true /\
  exists n q, source_file_package package_json (f_name (d_file d)) = Some n /\ n <> [] /\ types_name p q /\ In n [p; q; b "@types/" ++ p; b "@types/" ++ q].
Definition comes_from (s : specifier) (ds : list decl) : Prop :=
  match s_from s with
  | FName => True
  | FFile => (s_path s = [] /\ exists d r, In d ds /\ f_name (d_file d) = cwd ++ r) \/
             (s_path s <> [] /\ exists d, In d ds /\ f_name (d_file d) = absolute (s_path s) cwd)
  | FLib => ds = [] \/ exists d, In d ds /\ f_lib (d_file d) = true
  | FPackage => exists d, In d ds /\ (in_module d (s_package s) \/ in_package_file d (s_package s))
  | FOther _ => False
  end.
Definition known (s : specifier) : Prop := forall x, s_from s <> FOther x.
(** The names of a type: that of its alias, without alias that of its symbol, and the intrinsic one. *)
Inductive called : type_view -> bstr -> Prop :=
| cl_alias a y i p : called (TView (Some a) y i p) (y_name a)
| cl_sym y i p : called (TView None (Some y) i p) (y_name y)
| cl_intrinsic a y n p : called (TView a y (Some n) p) n.
(** Its declarations: those of its symbol, without symbol those of its alias. *)
Inductive declared : type_view -> list decl -> Prop :=
| de_sym a y i p : declared (TView a (Some y) i p) (y_decls y)
| de_alias a i p : declared (TView (Some a) None i p) (y_decls a)
| de_none i p : declared (TView None None i p) [].
Definition grounded (t : type_view) : Prop := forall ds, declared t ds -> Forall rooted ds.
Definition fits (t : type_view) (s : specifier) : Prop :=
  (exists n, called t n /\ In n (s_names s)) /\ exists ds, declared t ds /\ comes_from s ds.
(** The error type has no match of its own. *)
Definition no_error (t : type_view) : Prop := t_intrinsic t <> Some (b "error").
(** A value is only looked at further for packages. *)
Definition value_fits (v : value_node) (t : type_view) (s : specifier) : Prop :=
  v_name v <> [] /\ v_in_file v = true /\ In (v_name v) (s_names s) /\
  (s_from s = FPackage -> exists y, t_sym t = Some y /\ exists d, In d (y_decls y) /\ (in_module d (s_package s) \/ in_package_file d (s_package s))).

(** ** Proof *)
Lemma mem_spec n l : mem n l = true <-> In n l.
Proof. unfold mem. rewrite existsb_exists. split; [intros (x & I & E); apply beqb_eq in E; now subst|intros I; exists n; split; [auto|now apply beqb_eq]]. Qed.
Lemma some_spec {A} (f : A -> res bool) (P : A -> Prop) l : (forall x, In x l -> exists y, f x = Ok y /\ (y = true <-> P x)) -> exists y, some f l = Ok y /\ (y = true <-> exists x, In x l /\ P x).
Proof.
  induction l as [|x l IH]; intros H; [exists false; split; [reflexivity|split; [discriminate|intros (x & [] & _)]]|]. destruct (H x (or_introl eq_refl)) as (y & E & S). destruct IH as (z & EZ & SZ); [intros u I; apply H; now right|].
  cbn [some]. rewrite E. cbn [rbind]. destruct y.
  - exists true. split; [reflexivity|]. split; [|auto]. intros _. exists x. split; [now left|now apply S].
  - exists z. split; [auto|]. rewrite SZ. split; [intros (u & I & U); exists u; split; [now right|auto]|]. intros (u & [<-|I] & U); [apply S in U; discriminate|eauto].
Qed.
Lemma has_prefix_spec p s : has_prefix p s = true <-> exists r, s = p ++ r.
Proof.
  revert s. induction p as [|c p IH]; intros s; cbn [has_prefix]; [split; [exists s; reflexivity|reflexivity]|]. destruct s as [|d s]; [split; [discriminate|intros [r E]; discriminate]|].
  rewrite andb_true_iff, IH. split; [intros [E [r ->]]; apply Ascii.eqb_eq in E; subst; exists r; reflexivity|intros [r [= -> ->]]; split; [apply Ascii.eqb_refl|eauto]].
Qed.
Lemma parent_module_spec l : In ASource l -> exists o, parent_module l = Ok o /\
  forall p, o = Some p <-> exists pre rest, l = pre ++ AModule p true :: rest /\ Forall (fun a => a = ANamespace \/ a = AOther) pre.
Proof.
  induction l as [|a l IH]; intros I; [destruct I|].
  assert (SKIP : a = ANamespace \/ a = AOther -> exists o, parent_module (a :: l) = Ok o /\ forall p, o = Some p <-> exists pre rest, a :: l = pre ++ AModule p true :: rest /\ Forall (fun a => a = ANamespace \/ a = AOther) pre).
  { intros A. assert (I' : In ASource l) by (destruct I as [->|I]; [destruct A; discriminate|auto]). destruct (IH I') as (o & E & S). exists o. split; [destruct A as [->| ->]; exact E|].
    intros p. rewrite S. split; [intros (pre & rest & -> & F); exists (a :: pre), rest; split; [reflexivity|constructor; auto]|]. intros ([|x pre] & rest & E' & F); [injection E' as -> _; destruct A; discriminate|].
    injection E' as <- ->. inversion F; subst. eauto. }
  destruct a as [|name [|]| |]; [apply SKIP; auto| | | |apply SKIP; auto].
  - exists (Some name). split; [reflexivity|]. intros p. split; [intros [= ->]; exists [], l; auto|]. intros ([|x pre] & rest & E' & F); [injection E' as -> _; reflexivity|]. injection E' as <- ->. inversion F as [|? ? [X|X]]; discriminate.
  - exists None. split; [reflexivity|]. intros p. split; [discriminate|]. intros ([|x pre] & rest & E' & F); [discriminate|]. injection E' as <- ->. inversion F as [|? ? [X|X]]; discriminate.
  - exists None. split; [reflexivity|]. intros p. split; [discriminate|]. intros ([|x pre] & rest & E' & F); [discriminate|]. injection E' as <- ->. inversion F as [|? ? [X|X]]; discriminate.
Qed.

(** *** The types package *)
Lemma index_none s : ~ In slash s -> index_of slash s = -1.
Proof.
  induction s as [|c s IH]; intros N; [reflexivity|]. cbn [index_of]. destruct (Ascii.eqb_spec slash c) as [<-|X]; [destruct N; now left|]. rewrite IH; [reflexivity|]. intros I. apply N. now right.
Qed.
Lemma index_at s r : ~ In slash s -> index_of slash (s ++ slash :: r) = zlen s.
Proof.
  unfold zlen. induction s as [|c s IH]; intros N; [reflexivity|]. cbn [app index_of]. destruct (Ascii.eqb_spec slash c) as [<-|X]; [destruct N; now left|].
  rewrite IH by (intros I; apply N; now right). cbn [List.length]. rewrite Nat2Z.inj_succ. destruct (Z.of_nat (List.length s)) eqn:E; lia.
Qed.
Lemma split_at_slash s : ~ In slash s \/ exists x r, s = x ++ slash :: r /\ ~ In slash x.
Proof.
  induction s as [|c s [N|(x & r & -> & N)]]; [left; intros []| |]; destruct (Ascii.eqb_spec c slash) as [->|X].
  - right. exists [], s. split; [reflexivity|intros []].
  - left. intros [I|I]; auto.
  - right. exists [], (x ++ slash :: r). split; [reflexivity|intros []].
  - right. exists (c :: x), r. split; [reflexivity|intros [I|I]; auto].
Qed.
Lemma types_package_spec p : exists q, types_package_name p = Ok q /\ types_name p q.
Proof.
  unfold types_package_name. destruct p as [|c p]; [exists []; split; [reflexivity|]; right; split; [intros scope name [E _]; discriminate|reflexivity]|].
  assert (KEEP : (forall scope name, ~ scoped (c :: p) scope name) -> types_name (c :: p) (c :: p)) by (intros H; right; auto).
  destruct (Ascii.eqb_spec c "@") as [->|NC]; cbn [negb].
  2:{ exists (c :: p). split; [reflexivity|]. apply KEEP. intros scope name [[= E _] _]. contradiction. }
  destruct (split_at_slash p) as [N|(x & r & -> & N)].
  - rewrite index_none by (intros [X|X]; [discriminate|auto]). cbn [Z.leb Z.compare orb]. eexists. split; [reflexivity|]. apply KEEP. intros scope name [[= E] _]. apply N. rewrite E. apply in_or_app. right. left. reflexivity.
  - assert (N' : ~ In slash ("@"%char :: x)) by (intros [X|X]; [discriminate|auto]). assert (IX : index_of slash ("@"%char :: x ++ slash :: r) = zlen ("@"%char :: x)) by (apply (index_at ("@"%char :: x)); auto). cbv zeta. rewrite !IX. clear IX.
    destruct x as [|d x].
    + cbn. eexists. split; [reflexivity|]. apply KEEP. intros scope name (E & S & NS & _). injection E as E. destruct scope as [|e scope]; [contradiction|]. injection E as <- _. apply NS. now left.
    + set (i := zlen ("@"%char :: d :: x)). assert (I1 : (i <=? 1) = false) by (apply Z.leb_gt; unfold i, zlen; cbn [List.length]; lia). rewrite I1. cbn [orb].
      set (w := "@"%char :: (d :: x) ++ slash :: r).
      assert (L : zlen w = i + 1 + zlen r) by (unfold w, i, zlen; cbn [List.length app]; rewrite app_length; cbn [List.length]; lia).
      destruct (Z.geb_spec (i + 1) (zlen w)) as [G|G].
      * eexists. split; [reflexivity|]. apply KEEP. assert (R0 : r = []) by (destruct r; [reflexivity|unfold zlen in L at 2; cbn [List.length] in L; lia]). subst r.
        intros scope name (E & S & NS & NN). injection E as E. change (d :: x ++ [slash]) with ((d :: x) ++ slash :: []) in E.
        assert (X : forall u v s t, ~ In slash u -> ~ In slash v -> u ++ slash :: s = v ++ slash :: t -> s = t).
        { clear. induction u as [|a u IH]; intros [|e v] s t NU NV E; cbn in E; [congruence| | |].
          - injection E as <- _. destruct NV; left; reflexivity.
          - injection E as -> _. destruct NU; left; reflexivity.
          - injection E as _ E. eapply IH; [| |exact E]; intros I; [apply NU|apply NV]; now right. }
        specialize (X _ _ _ _ N NS E). subst name. contradiction.
      * assert (R0 : r <> []) by (intros R0; assert (zlen r = 0) by (rewrite R0; reflexivity); lia).
        assert (S1 : slice w 1 i = Ok (d :: x)).
        { unfold slice. assert (C : (0 <=? 1) && (1 <=? i) && (i <=? zlen w) = true) by (rewrite !andb_true_iff, !Z.leb_le; apply Z.leb_gt in I1; lia). rewrite C. f_equal.
          unfold w. change (Z.to_nat 1) with 1%nat. cbn [skipn]. replace (Z.to_nat (i - 1)) with (List.length (d :: x) + 0)%nat by (unfold i, zlen; cbn [List.length]; lia). rewrite firstn_app_2. cbn. now rewrite app_nil_r. }
        assert (S2 : slice_from w (i + 1) = Ok r).
        { unfold slice_from, slice. assert (C : (0 <=? i + 1) && (i + 1 <=? zlen w) && (zlen w <=? zlen w) = true) by (rewrite !andb_true_iff, !Z.leb_le; apply Z.leb_gt in I1; lia). rewrite C. f_equal.
          assert (LL : Z.to_nat (i + 1) = List.length ("@"%char :: (d :: x) ++ [slash])) by (unfold i, zlen; cbn [List.length app]; rewrite app_length; cbn [List.length]; lia).
          assert (FW : skipn (Z.to_nat (i + 1)) w = r) by (replace w with (("@"%char :: (d :: x) ++ [slash]) ++ r) by (unfold w; cbn; now rewrite <- app_assoc); rewrite LL, skipn_app, skipn_all, Nat.sub_diag; reflexivity).
          rewrite FW. apply firstn_all2. replace (zlen w - (i + 1)) with (zlen r) by lia. unfold zlen. lia. }
        rewrite S1. cbn [rbind]. rewrite S2. cbn [rbind]. eexists. split; [reflexivity|]. left. exists (d :: x), r. split; [|reflexivity]. split; [reflexivity|]. split; [discriminate|auto].
Qed.
Lemma types_name_fun p q r : types_name p q -> types_name p r -> q = r.
Proof.
  intros [(s & n & S & ->)|[N ->]] [(s' & n' & S' & ->)|[N' ->]]; [|destruct (N' _ _ S)|destruct (N _ _ S')|reflexivity].
  destruct S as (E & _ & NS & _), S' as (E' & _ & NS' & _). rewrite E in E'. apply app_inv_head in E'. change (b "/" ++ n) with (slash :: n) in E'. change (b "/" ++ n') with (slash :: n') in E'. clear E. 
  revert s' NS' E'. induction s as [|a s IH]; intros [|e s'] NS' E'; cbn in E'; try congruence.
  - injection E' as <- _. destruct NS'; left; reflexivity.
  - injection E' as -> _. destruct NS; left; reflexivity.
  - injection E' as -> E'. cbn. f_equal. apply IH; auto; intros I; [apply NS|apply NS']; now right.
Qed.
(** The name of the types package is found without a panic, and there is one for each package. *)
Theorem C45_types_package : forall p q, types_package_name p = Ok q <-> types_name p q.
Proof.
  intros p q. destruct (types_package_spec p) as (r & E & T). rewrite E. split; [intros [= <-]; auto|]. intros T'. f_equal. eapply types_name_fun; eauto.
Qed.

(** *** The source *)
Lemma in_package_spec p ds : Forall rooted ds -> exists y, in_package package_json p ds (map d_file ds) = Ok y /\
  (y = true <-> exists d, In d ds /\ (in_module d p \/ in_package_file d p)).
Proof.
  intros R. unfold in_package, in_declare_module. rewrite Forall_forall in R.
  destruct (some_spec (fun d => let! m := parent_module (d_ancestors d) in Ok (match m with Some n => beqb n p | None => false end)) (fun d => in_module d p) ds) as (y & E & S).
  { intros d I. destruct (parent_module_spec _ (R d I)) as (o & E & S). rewrite E. cbn [rbind]. eexists. split; [reflexivity|]. unfold in_module. rewrite <- S. destruct o as [n|]; [|split; discriminate]. rewrite beqb_eq. split; congruence. }
  rewrite E. cbn [rbind]. destruct y.
  - exists true. split; [reflexivity|]. split; [|auto]. intros _. destruct (proj1 S eq_refl) as (d & I & M). eauto.
  - assert (NM : forall d, In d ds -> ~ in_module d p) by (intros d I M; assert (X : false = true) by (apply S; eauto); discriminate).
    unfold in_declaration_file. destruct (beqb p []) eqn:B.
    { apply beqb_eq in B. exists false. split; [reflexivity|]. split; [discriminate|]. intros (d & I & [M|[N _]]); [destruct (NM d I M)|contradiction]. }
    assert (PN : p <> []) by (intros ->; discriminate). destruct (types_package_spec p) as (q & TE & TN). rewrite TE. cbn [rbind].
    match goal with |- context [some ?f _] => destruct (some_spec f (fun fl => exists n, f_external fl = true /\ source_file_package package_json (f_name fl) = Some n /\ n <> [] /\ In n [p; q; b "@types/" ++ p; b "@types/" ++ q]) (map d_file ds)) as (y & E2 & S2) end.
    { intros fl _. destruct (source_file_package package_json (f_name fl)) as [n|]; [|exists false; split; [reflexivity|split; [discriminate|intros (n & _ & X & _); discriminate]]].
      destruct (beqb n []) eqn:BN; [apply beqb_eq in BN; exists false; split; [reflexivity|split; [discriminate|intros (m & _ & [= <-] & X & _); contradiction]]|].
      eexists. split; [reflexivity|]. rewrite andb_true_iff, !orb_true_iff, !beqb_eq. cbn [In]. split.
      - intros [H X]. exists n. split; [auto|]. split; [auto|]. split; [intros ->; discriminate|]. destruct H as [[[->| ->]| ->]| ->]; auto.
      - intros (m & X & [= <-] & _ & H). split; [|auto]. intuition congruence. }
    exists y. split; [exact E2|]. rewrite S2. split.
    + intros (fl & I & n & X & F & NN & H). apply in_map_iff in I. destruct I as (d & <- & I). exists d. split; [auto|]. right. split; [auto|]. split; [auto|]. exists n, q. auto.
    + intros (d & I & [M|(_ & X & n & q' & F & NN & T & H)]); [destruct (NM d I M)|]. pose proof (types_name_fun _ _ _ TN T). subst q'. exists (d_file d). split; [now apply in_map|]. exists n. auto.
Qed.
(** Where a declaration comes from. *)
Theorem C45_source : forall s ds, known s -> Forall rooted ds ->
  exists y, from_source package_json cwd absolute s ds = Ok y /\ (y = true <-> comes_from s ds).
Proof.
  intros s ds K R. unfold from_source, comes_from. destruct (s_from s) as [| | | |x] eqn:F.
  - eexists. split; [reflexivity|]. unfold in_file. destruct (beqb (s_path s) []) eqn:B.
    + apply beqb_eq in B. rewrite existsb_exists. split.
      * intros (fl & I & P). left. split; [auto|]. apply has_prefix_spec in P. destruct P as [r P]. apply in_map_iff in I. destruct I as (d & <- & I). eauto.
      * intros [[_ (d & r & I & P)]|[N _]]; [|contradiction]. exists (d_file d). split; [now apply in_map|]. apply has_prefix_spec. eauto.
    + rewrite existsb_exists. assert (N : s_path s <> []) by (intros E; rewrite E in B; discriminate). split.
      * intros (fl & I & P). right. split; [auto|]. apply beqb_eq in P. apply in_map_iff in I. destruct I as (d & <- & I). eauto.
      * intros [[X _]|[_ (d & I & P)]]; [contradiction|]. exists (d_file d). split; [now apply in_map|]. now apply beqb_eq.
  - eexists. split; [reflexivity|]. unfold in_lib. destruct ds as [|d ds]; [split; auto|]. cbn [map]. rewrite existsb_exists. split.
    + intros (fl & I & P). right. change (In fl (map d_file (d :: ds))) in I. apply in_map_iff in I. destruct I as (e & <- & I). eauto.
    + intros [X|(e & I & P)]; [discriminate|]. exists (d_file e). split; [|auto]. change (In (d_file e) (map d_file (d :: ds))). now apply in_map.
  - apply in_package_spec. exact R.
  - exists true. tauto.
  - destruct (K x F).
Qed.

(** *** Types *)
Lemma declared_exists t : exists ds, declared t ds.
Proof. destruct t as [[a|] [y|] i p]; eexists; constructor. Qed.
Lemma name_matches_spec t ns : name_matches t ns = true <-> exists n, called t n /\ In n ns.
Proof.
  unfold name_matches. destruct t as [a y i p]. cbn [t_alias t_sym t_intrinsic].
  assert (I : (match i with Some n => mem n ns | None => false end) = true <-> exists n, i = Some n /\ In n ns).
  { destruct i as [n|]; [|split; [discriminate|intros (n & X & _); discriminate]]. rewrite mem_spec. split; [eauto|intros (m & [= <-] & H); auto]. }
  assert (S : (match (match a with None => y | Some a => Some a end) with Some s => mem (y_name s) ns | None => false end) = true <-> exists s, (a = Some s \/ (a = None /\ y = Some s)) /\ In (y_name s) ns).
  { destruct a as [a|]; [rewrite mem_spec; split; [eauto|intros (s & [X|[X _]] & M); [injection X as <-; auto|discriminate]]|]. destruct y as [y|]; [|split; [discriminate|intros (s & [X|[_ X]] & _); discriminate]].
    rewrite mem_spec. split; [intros H; exists y; auto|intros (s & [X|[_ X]] & M); [discriminate|injection X as <-; auto]]. }
  destruct (match (match a with None => y | Some a => Some a end) with Some s => mem (y_name s) ns | None => false end) eqn:M.
  - split; [|auto]. intros _. destruct (proj1 S eq_refl) as (s & [->|[-> ->]] & H); exists (y_name s); split; auto; constructor.
  - rewrite I. split; [intros (n & -> & H); exists n; split; [constructor|auto]|]. intros (n & C & H). inversion C; subst; [| |eauto].
    + assert (X : false = true) by (apply S; eauto). discriminate.
    + assert (X : false = true) by (apply S; eexists; split; [right; split; reflexivity|auto]). discriminate.
Qed.
Lemma type_matches_spec t s : known s -> grounded t -> exists y, type_matches package_json cwd absolute t s = Ok y /\ (y = true <-> fits t s).
Proof.
  intros K G. unfold type_matches, fits. destruct (name_matches t (s_names s)) eqn:N; cbn [negb].
  - apply name_matches_spec in N. destruct t as [[a|] [y|] i p]; cbn [t_sym t_alias];
      (match goal with |- context [from_source _ _ _ _ ?ds] => assert (R : Forall rooted ds) by (apply G; constructor); destruct (C45_source s ds K R) as (z & E & S); exists z; split; [exact E|]; rewrite S; split;
        [intros C; split; [exact N|]; exists ds; split; [constructor|exact C]|intros [_ (ds' & D & C)]; inversion D; subst; exact C] end).
  - exists false. split; [reflexivity|]. split; [discriminate|]. intros [X _]. apply name_matches_spec in X. congruence.
Qed.
Lemma is_error_spec t : is_error t = true <-> t_intrinsic t = Some (b "error").
Proof. unfold is_error. destruct (t_intrinsic t) as [n|]; [rewrite beqb_eq; split; congruence|split; discriminate]. Qed.
Lemma matches_any_spec ss t : Forall known ss -> grounded t -> exists y, type_matches_any package_json cwd absolute ss t = Ok y /\ (y = true <-> no_error t /\ exists s, In s ss /\ fits t s).
Proof.
  intros K G. unfold type_matches_any, no_error. rewrite Forall_forall in K. destruct (is_error t) eqn:E.
  - apply is_error_spec in E. exists false. split; [reflexivity|]. split; [discriminate|]. intros [N _]. contradiction.
  - assert (N : t_intrinsic t <> Some (b "error")) by (intros X; apply is_error_spec in X; congruence).
    destruct (some_spec (type_matches package_json cwd absolute t) (fits t) ss) as (y & EY & S); [intros s I; apply type_matches_spec; auto|]. exists y. split; [exact EY|]. rewrite S. tauto.
Qed.
(** A type matches when it, or a part of the intersection it is, has a name and a source that one specifier asks
    for. *)
Theorem C45_type_matches :
  forall t specifiers, Forall known specifiers -> grounded t -> Forall grounded (t_parts t) ->
    exists y, type_matches_some package_json cwd absolute t specifiers = Ok y /\
      (y = true <-> exists u s, (u = t \/ In u (t_parts t)) /\ no_error u /\ In s specifiers /\ fits u s).
Proof.
  intros t ss K G GP. unfold type_matches_some. destruct (matches_any_spec ss t K G) as (y & E & S). rewrite E. cbn [rbind]. rewrite Forall_forall in GP.
  destruct (some_spec (type_matches_any package_json cwd absolute ss) (fun u => no_error u /\ exists s, In s ss /\ fits u s) (t_parts t)) as (z & EZ & SZ); [intros u I; apply matches_any_spec; auto|].
  destruct y.
  - exists true. split; [reflexivity|]. split; [|auto]. intros _. destruct (proj1 S eq_refl) as (N & s & I & F). exists t, s. auto.
  - exists z. split; [exact EZ|]. rewrite SZ. split.
    + intros (u & I & N & s & IS & F). exists u, s. auto.
    + intros (u & s & [->|I] & N & IS & F); [assert (X : false = true) by (apply S; eauto); discriminate|]. exists u. split; [auto|]. split; [auto|]. eauto.
Qed.

(** A symbol with a name of its own. *)
Theorem C45_symbol_matches :
  forall sym name s, known s -> (forall y, sym = Some y -> Forall rooted (y_decls y)) ->
    exists y, symbol_matches package_json cwd absolute sym name s = Ok y /\
      (y = true <-> In name (s_names s) /\ exists z, sym = Some z /\ comes_from s (y_decls z)).
Proof.
  intros [z|] name s K G; cbn [symbol_matches]; [|exists false; split; [reflexivity|split; [discriminate|intros (_ & z & X & _); discriminate]]].
  destruct (mem name (s_names s)) eqn:M; cbn [negb].
  - apply mem_spec in M. destruct (C45_source s (y_decls z) K (G z eq_refl)) as (y & E & S). exists y. split; [exact E|]. rewrite S. split; [intros C; split; [auto|eauto]|intros (_ & w & [= <-] & C); exact C].
  - exists false. split; [reflexivity|]. split; [discriminate|]. intros [I _]. apply mem_spec in I. congruence.
Qed.

(** A value matches when one specifier has its name and, for a package, its type comes from there. *)
Theorem C45_value_matches :
  forall v t specifiers, (forall y, t_sym t = Some y -> Forall rooted (y_decls y)) ->
    exists y, value_matches_some package_json v specifiers (Some t) = Ok y /\ (y = true <-> exists s, In s specifiers /\ value_fits v t s).
Proof.
  intros v t ss G. unfold value_matches_some. apply some_spec. intros s _. unfold value_matches, value_fits.
  destruct (beqb (v_name v) []) eqn:B; [apply beqb_eq in B; exists false; split; [reflexivity|split; [discriminate|intros [N _]; contradiction]]|].
  assert (NV : v_name v <> []) by (intros E; rewrite E in B; discriminate).
  destruct (mem (v_name v) (s_names s)) eqn:M; cbn [negb].
  2:{ exists false. split; [reflexivity|]. split; [discriminate|]. intros (_ & _ & I & _). apply mem_spec in I. congruence. }
  apply mem_spec in M. destruct (v_in_file v); cbn [negb]; [|exists false; split; [reflexivity|split; [discriminate|intros (_ & X & _); discriminate]]].
  destruct (s_from s) eqn:F; try (exists true; split; [reflexivity|]; split; [|reflexivity]; intros _; split; [auto|]; split; [auto|]; split; [auto|]; discriminate).
  destruct (t_sym t) as [y|] eqn:Y.
  - destruct (in_package_spec (s_package s) (y_decls y) (G y eq_refl)) as (z & E & S). exists z. split; [exact E|]. rewrite S. split.
    + intros X. split; [auto|]. split; [auto|]. split; [auto|]. intros _. eauto.
    + intros (_ & _ & _ & X). destruct (X eq_refl) as (y' & [= <-] & D). exact D.
  - exists false. split; [reflexivity|]. split; [discriminate|]. intros (_ & _ & _ & X). destruct (X eq_refl) as (y' & ? & _). discriminate.
Qed.
End Source.
Print Assumptions C45_types_package.
Print Assumptions C45_source.
Print Assumptions C45_type_matches.
Print Assumptions C45_symbol_matches.
Print Assumptions C45_value_matches.

(** ** What does not hold *)

(** Without path, a file next to the project whose name continues that of the project counts as a file of it. *)
Theorem C45_project_refuted :
  exists package_json cwd absolute s d, s_from s = FFile /\ s_path s = [] /\ rooted d /\
    from_source package_json cwd absolute s [d] = Ok true /\ forall r, f_name (d_file d) <> cwd ++ b "/" ++ r.
Proof.
  exists (fun _ => None), (b "/proj"), (fun p _ => p), {| s_from := FFile; s_names := []; s_path := []; s_package := [] |}, (Decl (File (b "/project2/a.ts") false false) [AOther; ASource]).
  split; [reflexivity|]. split; [reflexivity|]. split; [right; left; reflexivity|]. split; [reflexivity|]. intros r E. discriminate.
Qed.
Print Assumptions C45_project_refuted.

(** The name and the source need not be those of the same declaration: an alias in the project for a type of the
    library matches a specifier for the library with the name of the alias. *)
Theorem C45_same_symbol_refuted :
  exists package_json cwd absolute t s a, t_alias t = Some a /\ (forall n, called t n -> n = y_name a) /\
    type_matches package_json cwd absolute t s = Ok true /\ from_source package_json cwd absolute s (y_decls a) = Ok false.
Proof.
  set (a := Sym (b "Foo") [Decl (File (b "/p/a.ts") false false) [AOther; ASource]]). set (y := Sym (b "Promise") [Decl (File (b "lib.d.ts") true false) [AOther; ASource]]).
  exists (fun _ => None), (b "/p"), (fun p _ => p), (TView (Some a) (Some y) None []), {| s_from := FLib; s_names := [b "Foo"]; s_path := []; s_package := [] |}, a.
  split; [reflexivity|]. split; [|split; reflexivity]. intros n C. inversion C. reflexivity.
Qed.
Print Assumptions C45_same_symbol_refuted.

(** For a value the file and the library are not looked at. *)
Theorem C45_value_source_refuted :
  exists package_json cwd absolute v t s y, t_sym t = Some y /\ y_name y = v_name v /\
    value_matches package_json v (Some t) s = Ok true /\ from_source package_json cwd absolute s (y_decls y) = Ok false.
Proof.
  set (y := Sym (b "test") [Decl (File (b "/p/a.ts") false false) [AOther; ASource]]).
  exists (fun _ => None), (b "/p"), (fun p _ => p), (Value (b "test") true), (TView None (Some y) None []), {| s_from := FLib; s_names := [b "test"]; s_path := []; s_package := [] |}, y.
  repeat split; reflexivity.
Qed.
Print Assumptions C45_value_source_refuted.

(** A value without type panics for a package, and an unknown source does once the name matches. *)
Theorem C45_panic_refuted :
  (exists package_json v s, known s /\ value_matches package_json v None s = Panic) /\
  (exists package_json cwd absolute t s, grounded t /\ type_matches package_json cwd absolute t s = Panic).
Proof.
  split.
  - exists (fun _ => None), (Value (b "f") true), {| s_from := FPackage; s_names := [b "f"]; s_path := []; s_package := b "p" |}. split; [intros x; discriminate|reflexivity].
  - exists (fun _ => None), (b "/"), (fun p _ => p), (TView None None (Some (b "string")) []), {| s_from := FOther 7; s_names := [b "string"]; s_path := []; s_package := [] |}.
    split; [intros ds D; inversion D; constructor|reflexivity].
Qed.
Print Assumptions C45_panic_refuted.

(** A [module X] inside of [declare module "p"] hides it. *)
Theorem C45_nested_module_refuted :
  exists d p, rooted d /\ In (AModule p true) (d_ancestors d) /\ in_declare_module p [d] = Ok false.
Proof.
  exists (Decl (File (b "/a.d.ts") false true) [AOther; AModule (b "N") false; AModule (b "p") true; ASource]), (b "p"). split; [cbn; tauto|]. split; [cbn; tauto|reflexivity].
Qed.
Print Assumptions C45_nested_module_refuted.

(** ** Examples *)
Definition no_json : bstr -> option bstr := fun _ => None.
Definition ext (n : bstr) : file := File n false true.
Example C45_ex_types : types_package_name (b "@babel/core") = Ok (b "babel__core") /\ types_package_name (b "@babel") = Ok (b "@babel") /\
  types_package_name (b "@/x") = Ok (b "@/x") /\ types_package_name (b "node") = Ok (b "node").
Proof. repeat split; reflexivity. Qed.
Example C45_ex_path : package_of_path (b "/p/node_modules/a/node_modules/@s/b/i.d.ts") = Some (b "@s/b") /\ package_of_path (b "c:\p\node_modules\a\i.d.ts") = Some (b "a") /\
  package_of_path (b "/node_modules/a/node_modules/@s") = Some (b "a") /\ package_of_path (b "/my_node_modules/a") = None.
Proof. repeat split; reflexivity. Qed.
Example C45_ex_package :
  let t := TView None (Some (Sym (b "Node") [Decl (ext (b "/p/node_modules/@types/babel__core/i.d.ts")) [AOther; ASource]])) None [] in
  let s := {| s_from := FPackage; s_names := [b "Node"; b "X"]; s_path := []; s_package := b "@babel/core" |} in
  type_matches_some no_json (b "/p") (fun p _ => p) t [s] = Ok true /\
  type_matches_some no_json (b "/p") (fun p _ => p) t [{| s_from := FPackage; s_names := [b "Node"]; s_path := []; s_package := b "babel" |}] = Ok false /\
  type_matches_some no_json (b "/p") (fun p _ => p) (TView None None None [TView None None (Some (b "string")) []; t]) [s] = Ok true /\
  value_matches_some no_json (Value (b "X") true) [s] (Some t) = Ok true.
Proof. repeat split; reflexivity. Qed.
Example C45_ex_module :
  in_package no_json (b "p") [Decl (ext (b "/a.d.ts")) [AOther; ANamespace; AModule (b "p") true; ASource]] [] = Ok true.
Proof. reflexivity. Qed.
Example C45_ex_error : type_matches_some no_json [] (fun p _ => p) (TView None None (Some (b "error")) []) [{| s_from := FName; s_names := [b "error"]; s_path := []; s_package := [] |}] = Ok false.
Proof. reflexivity. Qed.
