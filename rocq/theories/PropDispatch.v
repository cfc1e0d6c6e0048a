(** * PropDispatch.v — property C88: calls that mix instances with arrays, or instances of
      different classes, raise; everything else works field by field. *)
From Coq Require Import String List Bool Arith Lia.
From Verif Require Import DispatchModel.
Import ListNotations.

Section TreeInd.
  Context {A : Type} (P : tree A -> Prop) (HL : forall a, P (Leaf a)) (HN : forall k l, Forall P l -> P (Node k l)).
  Fixpoint tree_ind' (t : tree A) : P t :=
    match t with
    | Leaf a => HL a
    | Node k l => HN k l ((fix go (l : list (tree A)) : Forall P l := match l with [] => Forall_nil P | x :: r => Forall_cons x (tree_ind' x) (go r) end) l)
    end.
End TreeInd.

(** ** Specification *)
(** the same classes and containers, nested in the same way *)
Definition same_structure {A B} (s : tree A) (t : tree B) : Prop := kinds s = kinds t.
(** [r] is the result of [g] field by field: the structure of [x], and every array what [g] makes
    of the arrays at that place *)
Definition fieldwise {A B} (g : list A -> option B) (ts : list (tree A)) (r : tree B) : Prop :=
  (forall t, In t ts -> same_structure t r) /\
  forall k b, nth_error (leaves r) k = Some b -> exists row, Forall2 (fun t a => nth_error (leaves t) k = Some a) ts row /\ g row = Some b.

Lemma all_some_iff {X Y} (f : X -> option Y) l ys : all_some f l = Some ys <-> Forall2 (fun x y => f x = Some y) l ys.
Proof.
  revert ys. induction l as [|x l IH]; intros ys; cbn [all_some].
  - split; [intros [= <-]; constructor|intros H; inversion H; reflexivity].
  - split.
    + destruct (f x) as [y|] eqn:E; [|discriminate]. destruct (all_some f l) as [zs|] eqn:E2; [|discriminate]. intros [= <-]. constructor; [exact E|]. now apply IH.
    + intros H. inversion H as [|a b l1 l2 H1 H2]; subst. rewrite H1. apply IH in H2. now rewrite H2.
Qed.
Lemma leaves_count {A B} (s : tree A) : forall (t : tree B), kinds s = kinds t -> length (leaves s) = length (leaves t).
Proof.
  induction s as [a|k l IH] using tree_ind'; intros [b|k' l'] H; cbn [kinds] in H; try discriminate; [reflexivity|]. injection H as _ H. cbn [leaves]. revert l' H. induction IH as [|x l Hx Hl IH2]; intros [|y l'] H; cbn [map] in H; try discriminate; [reflexivity|].
  injection H as H1 H2. cbn [flat_map]. rewrite !app_length, (Hx _ H1), (IH2 _ H2). reflexivity.
Qed.
Definition maps {A B} (f : A -> list (tree A) -> option B) : list (tree A) -> list (list (tree A)) -> option (list (tree B)) :=
  fix go (l : list (tree A)) (chs : list (list (tree A))) {struct l} : option (list (tree B)) :=
    match l with
    | [] => Some []
    | c :: r => match tree_map f c (heads chs), go r (map (@tl _) chs) with Some c', Some r' => Some (c' :: r') | _, _ => None end
    end.
Lemma tree_map_node {A B} (f : A -> list (tree A) -> option B) k l rest :
  tree_map f (Node k l) rest = match all_some (children k (length l)) rest with None => None | Some chs => option_map (Node k) (maps f l chs) end.
Proof. reflexivity. Qed.
Lemma split_heads {A} n (chs : list (list (tree A))) : (forall ch, In ch chs -> length ch = S n) ->
  exists ps, chs = map (fun p => fst p :: snd p) ps /\ heads chs = map fst ps /\ map (@tl _) chs = map snd ps /\ forall ch, In ch (map snd ps) -> length ch = n.
Proof.
  induction chs as [|ch chs IH]; intros H; [exists []; cbn; repeat split; auto; intros ch []|]. destruct IH as (ps & E1 & E2 & E3 & E4); [intros c Hc; apply H; now right|].
  pose proof (H ch (or_introl eq_refl)) as L. destruct ch as [|h t]; [discriminate|]. exists ((h, t) :: ps). unfold heads in *. cbn [map flat_map fst snd firstn app tl]. split; [f_equal; exact E1|]. split; [f_equal; exact E2|]. split; [f_equal; exact E3|].
  intros c [<-|Hc]; [cbn in L; lia|now apply E4].
Qed.
Lemma children_iff {A} k n (t : tree A) c : children k n t = Some c <-> t = Node k c /\ length c = n.
Proof.
  destruct t as [a|k' l]; cbn [children]; [split; [discriminate|intros [H _]; discriminate]|]. destruct (kind_eq_dec k k') as [<-|NE].
  - destruct (Nat.eqb_spec (length l) n) as [E|NE]; split; [intros [= <-]; auto|intros [[= ->] _]; reflexivity|discriminate|intros [[= ->] H]; contradiction].
  - split; [discriminate|intros [[= H _] _]; congruence].
Qed.
Lemma F2_map_l {X X' Y} (h : X -> X') (R : X' -> Y -> Prop) l m : Forall2 R (map h l) m <-> Forall2 (fun x y => R (h x) y) l m.
Proof. revert m. induction l as [|x l IH]; intros m; cbn [map]; split; intros H; inversion H; subst; constructor; try assumption; now apply IH. Qed.
Lemma F2_impl {X Y} (R S : X -> Y -> Prop) l m : (forall x y, In x l -> R x y -> S x y) -> Forall2 R l m -> Forall2 S l m.
Proof. intros HI H. induction H as [|x y l m H1 H2 IH]; constructor; [apply HI; [now left|exact H1]|]. apply IH. intros a b Ha. apply HI. now right. Qed.
Lemma jnp_some {A B} (g : list A -> option B) a rest b : jnp g a rest = Some b <-> exists row, Forall2 (fun t x => t = Leaf x) rest row /\ g (a :: row) = Some b.
Proof.
  unfold jnp. destruct (all_some as_leaf rest) as [row|] eqn:E.
  - apply all_some_iff in E. assert (F : Forall2 (fun t x => t = Leaf x) rest row) by (refine (F2_impl _ _ _ _ _ E); intros [c|k l] y _ H; cbn in H; congruence).
    split; [intros H; exists row; auto|]. intros (row' & H1 & H2). replace row with row'; [exact H2|]. clear - F H1. revert row' H1. induction F as [|t x l m H F IH]; intros row' H1; inversion H1; subst; [reflexivity|]. f_equal; [congruence|now apply IH].
  - split; [discriminate|]. intros (row & H1 & _). exfalso. assert (E' : all_some as_leaf rest = Some row) by (apply all_some_iff; refine (F2_impl _ _ _ _ _ H1); intros t y _ ->; reflexivity). congruence.
Qed.
(** [tree_map] of a jax function returns only field-by-field results *)
Lemma tree_map_fieldwise {A B} (g : list A -> option B) (x : tree A) : forall rest r, tree_map (jnp g) x rest = Some r -> fieldwise g (x :: rest) r.
Proof.
  induction x as [a|k l IH] using tree_ind'; intros rest r E.
  - cbn [tree_map] in E. destruct (jnp g a rest) as [b|] eqn:EJ; [|discriminate]. injection E as <-. apply jnp_some in EJ. destruct EJ as (row & HR & HG). split.
    + intros t [<-|Ht]; [reflexivity|]. clear - HR Ht. induction HR as [|t' x l m H HR IH]; [destruct Ht|]. destruct Ht as [<-|Ht]; [subst; reflexivity|now apply IH].
    + intros k b' Hk. cbn [leaves] in Hk. destruct k as [|k]; [|destruct k; discriminate]. injection Hk as <-. exists (a :: row). split; [|exact HG]. constructor; [reflexivity|]. refine (F2_impl _ _ _ _ _ HR). intros t y _ ->. reflexivity.
  - rewrite tree_map_node in E. destruct (all_some (children k (length l)) rest) as [chs|] eqn:EC; [|discriminate]. destruct (maps (jnp g) l chs) as [r'|] eqn:EM; [|discriminate]. injection E as <-.
    apply all_some_iff in EC. assert (HC : Forall2 (fun t c => t = Node k c) rest chs) by (refine (F2_impl _ _ _ _ _ EC); intros t c _ H; now apply children_iff in H).
    assert (HL : forall ch, In ch chs -> length ch = length l). { clear - EC. induction EC as [|t c r cs H EC IH]; intros ch Hch; [destruct Hch|]. destruct Hch as [<-|Hch]; [apply children_iff in H; apply H|now apply IH]. }
    clear EC. assert (K : (forall ch, In ch (l :: chs) -> map kinds ch = map kinds r') /\ forall i b, nth_error (flat_map leaves r') i = Some b -> exists row, Forall2 (fun c a => nth_error (flat_map leaves c) i = Some a) (l :: chs) row /\ g row = Some b).
    { clear HC rest. revert chs r' HL EM. induction IH as [|c l Hc HF IH2]; intros chs r' HL EM.
      - injection EM as <-. split; [|intros [|i] b H; discriminate]. intros ch [<-|Hch]; [reflexivity|]. specialize (HL ch Hch). destruct ch; [reflexivity|discriminate].
      - destruct (split_heads (length l) chs HL) as (ps & E1 & E2 & E3 & E4). cbn [maps] in EM. fold (@maps A B) in EM. change (match tree_map (jnp g) c (heads chs), maps (jnp g) l (map (@tl _) chs) with Some c', Some r' => Some (c' :: r') | _, _ => None end = Some r') in EM.
        destruct (tree_map (jnp g) c (heads chs)) as [c'|] eqn:EX; [|discriminate]. destruct (maps (jnp g) l (map (@tl _) chs)) as [r2|] eqn:EY; [|discriminate]. injection EM as <-.
        rewrite E2 in EX. rewrite E3 in EY. destruct (Hc _ _ EX) as [K1 K2]. destruct (IH2 (map snd ps) r2 E4 EY) as [K3 K4].
        assert (KC : kinds c = kinds c') by (apply K1; now left). assert (KR : map kinds l = map kinds r2) by (apply K3; now left).
        assert (KP : forall p, In p ps -> kinds (fst p) = kinds c' /\ map kinds (snd p) = map kinds r2) by (intros p Hp; split; [apply K1; right; now apply in_map|apply K3; right; now apply in_map]).
        subst chs. split.
        + intros ch [<-|Hch]; [cbn [map]; congruence|]. apply in_map_iff in Hch. destruct Hch as (p & <- & Hp). destruct (KP p Hp) as [Q1 Q2]. cbn [map]. congruence.
        + intros i b Hi. cbn [flat_map] in Hi. destruct (Nat.lt_ge_cases i (length (leaves c'))) as [HLT|HGE].
          * rewrite nth_error_app1 in Hi by exact HLT. destruct (K2 i b Hi) as (row & R1 & R2). exists row. split; [|exact R2]. inversion R1 as [|t0 a0 l0 row0 R3 R4]; subst. constructor.
            -- cbn [flat_map]. rewrite nth_error_app1 by (rewrite (leaves_count c c' KC); exact HLT). exact R3.
            -- apply F2_map_l. apply F2_map_l in R4. refine (F2_impl _ _ _ _ _ R4). intros p a Hp H. cbn [flat_map]. rewrite nth_error_app1 by (rewrite (leaves_count _ _ (proj1 (KP p Hp))); exact HLT). exact H.
          * rewrite nth_error_app2 in Hi by exact HGE. destruct (K4 _ b Hi) as (row & R1 & R2). exists row. split; [|exact R2]. inversion R1 as [|t0 a0 l0 row0 R3 R4]; subst. constructor.
            -- cbn [flat_map]. rewrite nth_error_app2; rewrite (leaves_count c c' KC); [exact R3|exact HGE].
            -- apply F2_map_l. apply F2_map_l in R4. refine (F2_impl _ _ _ _ _ R4). intros p a Hp H. cbn [flat_map]. rewrite nth_error_app2; rewrite (leaves_count _ _ (proj1 (KP p Hp))); [exact H|exact HGE]. }
    destruct K as [K1 K2]. split.
    + intros t [<-|Ht]; unfold same_structure; cbn [kinds]; [f_equal; apply K1; now left|].
      assert (X : exists ch, t = Node k ch /\ In ch chs) by (clear - HC Ht; induction HC as [|t' c r cs H HC IH]; [destruct Ht|]; destruct Ht as [<-|Ht]; [exists c; split; [exact H|now left]|destruct (IH Ht) as (ch & Q1 & Q2); exists ch; split; [exact Q1|now right]]).
      destruct X as (ch & -> & Hch). cbn [kinds]. f_equal. apply K1. now right.
    + intros i b Hi. cbn [leaves] in Hi. destruct (K2 i b Hi) as (row & R1 & R2). exists row. split; [|exact R2]. inversion R1 as [|t0 a0 l0 row0 R3 R4]; subst. constructor; [exact R3|].
      clear - HC R4. revert row0 R4. induction HC as [|t c r cs H HC IH]; intros row0 R4; inversion R4; subst; constructor; [assumption|now apply IH].
Qed.
Lemma F2_nth_split {A} i n (c : tree A) l (ps : list (tree A * list (tree A))) row : length (leaves c) = n -> (forall p, In p ps -> length (leaves (fst p)) = n) ->
  Forall2 (fun t a => nth_error (leaves t) i = Some a) (Node KNone (c :: l) :: map (fun p => Node KNone (fst p :: snd p)) ps) row ->
  (i < n -> Forall2 (fun t a => nth_error (leaves t) i = Some a) (c :: map fst ps) row) /\ (n <= i -> Forall2 (fun t a => nth_error (leaves t) (i - n) = Some a) (Node KNone l :: map (fun p => Node KNone (snd p)) ps) row).
Proof.
  intros H1 H2 H. inversion H as [|t0 a0 l0 row0 R3 R4]; subst. apply F2_map_l in R4. cbn [leaves flat_map] in R3. split; intros Hi; (constructor; [|apply F2_map_l; refine (F2_impl _ _ _ _ _ R4); intros p a Hp E; cbn [leaves flat_map] in E]).
  - now rewrite nth_error_app1 in R3 by lia.
  - rewrite nth_error_app1 in E; [exact E|]. rewrite (H2 p Hp). lia.
  - cbn [leaves]. now rewrite nth_error_app2 in R3 by lia.
  - cbn [leaves]. rewrite nth_error_app2 in E; rewrite (H2 p Hp) in *; [exact E|lia].
Qed.
(** and it returns whenever the structures agree and the function accepts the arrays at every place *)
Lemma tree_map_complete {A B} (g : list A -> option B) (x : tree A) : forall rest, (forall t, In t rest -> kinds t = kinds x) ->
  (forall i, i < length (leaves x) -> exists row b, Forall2 (fun t a => nth_error (leaves t) i = Some a) (x :: rest) row /\ g row = Some b) -> exists r, tree_map (jnp g) x rest = Some r.
Proof.
  induction x as [a|k l IH] using tree_ind'; intros rest HK HG.
  - destruct (HG 0) as (row & b & R1 & R2); [cbn; lia|]. exists (Leaf b). cbn [tree_map]. replace (jnp g a rest) with (Some b); [reflexivity|]. symmetry. apply jnp_some. inversion R1 as [|t0 a0 l0 row0 R3 R4]; subst. cbn in R3. injection R3 as <-. exists row0. split; [|exact R2].
    refine (F2_impl _ _ _ _ _ R4). intros t y Ht H. specialize (HK t Ht). destruct t as [y'|]; [|discriminate]. cbn in H. congruence.
  - rewrite tree_map_node. assert (X : exists chs, all_some (children k (length l)) rest = Some chs /\ map kinds rest = map (fun ch => Node k (map kinds ch)) chs /\ rest = map (Node k) chs).
    { clear HG IH. induction rest as [|t rest IHr]; [exists []; repeat split|]. destruct IHr as (chs & Q1 & Q2 & Q3); [intros t' Ht'; apply HK; now right|]. pose proof (HK t (or_introl eq_refl)) as H. destruct t as [|k' l']; cbn [kinds] in H; [discriminate|]. injection H as -> H.
      exists (l' :: chs). cbn [all_some map]. assert (L : length l' = length l) by (apply (f_equal (@length _)) in H; now rewrite !map_length in H). rewrite (proj2 (children_iff k (length l) (Node k l') l')) by auto. rewrite Q1. cbn [kinds]. split; [reflexivity|]. split; [f_equal; exact Q2|f_equal; exact Q3]. }
    destruct X as (chs & -> & _ & ->). assert (HC : forall ch, In ch chs -> map kinds ch = map kinds l) by (intros ch Hch; specialize (HK (Node k ch) (in_map _ _ _ Hch)); cbn [kinds] in HK; congruence).
    assert (HG' : forall i, i < length (flat_map leaves l) -> exists row b, Forall2 (fun t a => nth_error (leaves t) i = Some a) (Node KNone l :: map (Node KNone) chs) row /\ g row = Some b).
    { intros i Hi. destruct (HG i Hi) as (row & b & R1 & R2). exists row, b. split; [|exact R2]. inversion R1 as [|t0 a0 l0 row0 R3 R4]; subst. constructor; [exact R3|]. apply F2_map_l. apply F2_map_l in R4. exact R4. }
    clear HG HK. assert (K : exists r', maps (jnp g) l chs = Some r').
    { revert chs HC HG'. induction IH as [|c l Hc HF IH2]; intros chs HC HG; [exists []; reflexivity|].
      destruct (split_heads (length l) chs) as (ps & E1 & E2 & E3 & E4); [intros ch Hch; specialize (HC ch Hch); apply (f_equal (@length _)) in HC; now rewrite !map_length in HC|].
      change (maps (jnp g) (c :: l) chs) with (match tree_map (jnp g) c (heads chs), maps (jnp g) l (map (@tl _) chs) with Some c', Some r' => Some (c' :: r') | _, _ => None end). rewrite E2, E3. subst chs.
      assert (HP : forall p, In p ps -> kinds (fst p) = kinds c /\ map kinds (snd p) = map kinds l) by (intros p Hp; specialize (HC _ (in_map _ _ _ Hp)); cbn [map] in HC; injection HC; auto).
      assert (HN : forall p, In p ps -> length (leaves (fst p)) = length (leaves c)) by (intros p Hp; apply leaves_count, HP, Hp).
      destruct (Hc (map fst ps)) as [c' EC].
      - intros t Ht. apply in_map_iff in Ht. destruct Ht as (p & <- & Hp). now apply HP.
      - intros i Hi. destruct (HG i) as (row & b & R1 & R2); [cbn [flat_map]; rewrite app_length; lia|]. exists row, b. split; [|exact R2]. rewrite map_map in R1. now apply (F2_nth_split i _ c l ps row eq_refl HN R1).
      - destruct (IH2 (map snd ps)) as [r' ER].
        + intros ch Hch. apply in_map_iff in Hch. destruct Hch as (p & <- & Hp). now apply HP.
        + intros i Hi. destruct (HG (length (leaves c) + i)) as (row & b & R1 & R2); [cbn [flat_map]; rewrite app_length; lia|]. exists row, b. split; [|exact R2]. rewrite map_map in R1. destruct (F2_nth_split _ _ c l ps row eq_refl HN R1) as [_ F].
          specialize (F ltac:(lia)). rewrite map_map. replace (length (leaves c) + i - length (leaves c)) with i in F by lia. exact F.
        + exists (c' :: r'). now rewrite EC, ER. }
    destruct K as [r' K]. exists (Node k r'). now rewrite K.
Qed.
Lemma inst_kinds {A B} (s : tree A) (t : tree B) : kinds s = kinds t -> is_inst s = is_inst t.
Proof. destruct s as [|k l], t as [|k' l']; cbn [kinds]; intros H; try discriminate; [reflexivity|]. injection H as -> _. reflexivity. Qed.

(** ** equal, not_equal, isclose, broadcast_arrays, result_type *)
(** if one argument is an instance and the call returns, then all arguments are instances of the
    same class with the same nesting, and the result is the jax function field by field *)
(** what the statements call an instance: a node of a structured class, not a container *)
Theorem C88_instances : forall A (t : tree A), is_inst t = true <-> exists c l, t = Node (KInst c) l.
Proof. intros A [a|[c| | |] l]; cbn; (split; [intros H; first [discriminate|eauto]|intros (c0 & l0 & H); first [discriminate|reflexivity]]). Qed.
Theorem C88_fieldwise : forall A B (g : list A -> option B) x rest r, existsb is_inst (x :: rest) = true -> xnp_any g x rest = Some r ->
  fieldwise g (x :: rest) r /\ is_inst r = true /\ forall s t, In s (x :: rest) -> In t (x :: rest) -> same_structure s t /\ is_inst s = true.
Proof.
  intros A B g x rest r HI E. unfold xnp_any in E. rewrite HI in E. pose proof (tree_map_fieldwise g x rest r E) as F. pose proof F as [F1 _].
  assert (HR : is_inst r = true) by (apply existsb_exists in HI; destruct HI as (t & Ht & HI); rewrite <- (inst_kinds _ _ (F1 t Ht)); exact HI).
  split; [exact F|]. split; [exact HR|]. intros s t Hs Ht. split; [unfold same_structure; rewrite (F1 s Hs); symmetry; exact (F1 t Ht)|rewrite (inst_kinds _ _ (F1 s Hs)); exact HR].
Qed.
(** so a mixture of instances and arrays raises, and so do instances of different classes, even
    if the classes have the same fields *)
Theorem C88_mixture_raises : forall A B (g : list A -> option B) x rest s t, In s (x :: rest) -> In t (x :: rest) -> is_inst s = true -> ~ same_structure s t -> xnp_any g x rest = None.
Proof.
  intros A B g x rest s t Hs Ht HI HN. destruct (xnp_any g x rest) as [r|] eqn:E; [exfalso|reflexivity]. apply HN. eapply (C88_fieldwise A B g x rest r); [apply existsb_exists; exists s; auto|exact E|exact Hs|exact Ht].
Qed.
(** and it does return for instances of one class whose arrays the jax function accepts *)
Theorem C88_returns : forall A B (g : list A -> option B) x rest, is_inst x = true -> (forall t, In t rest -> same_structure t x) ->
  (forall i, i < length (leaves x) -> exists row b, Forall2 (fun t a => nth_error (leaves t) i = Some a) (x :: rest) row /\ g row = Some b) -> exists r, xnp_any g x rest = Some r /\ fieldwise g (x :: rest) r.
Proof.
  intros A B g x rest HI HS HG. destruct (tree_map_complete g x rest HS HG) as [r E]. exists r. split; [|now apply tree_map_fieldwise]. unfold xnp_any. cbn [existsb]. now rewrite HI.
Qed.
(** allclose: true when the jax function says so in every field *)
Theorem C88_allclose : forall A (g : list A -> option bool) x y b, is_inst x = true \/ is_inst y = true -> xnp_allclose g x y = Some b ->
  same_structure x y /\ (b = true <-> forall i a a', nth_error (leaves x) i = Some a -> nth_error (leaves y) i = Some a' -> g [a; a'] = Some true).
Proof.
  intros A g x y b HI E. unfold xnp_allclose in E. replace (is_inst x || is_inst y) with true in E by (symmetry; apply orb_true_iff; tauto). destruct (tree_map (jnp g) x [y]) as [r|] eqn:ER; [|discriminate]. injection E as <-.
  destruct (tree_map_fieldwise g x [y] r ER) as [F1 F2]. pose proof (F1 x (or_introl eq_refl)) as Kx. pose proof (F1 y (or_intror (or_introl eq_refl))) as Ky. split; [unfold same_structure in *; congruence|].
  rewrite forallb_forall. split.
  - intros H i a a' Ha Ha'. assert (HL : i < length (leaves r)) by (rewrite <- (leaves_count _ _ Kx); apply nth_error_Some; congruence). destruct (nth_error (leaves r) i) as [b|] eqn:Eb; [|apply nth_error_None in Eb; lia].
    destruct (F2 i b Eb) as (row & R1 & R2). inversion R1 as [|? ? ? ? R3 R4]; subst. inversion R4 as [|? ? ? ? R5 R6]; subst. inversion R6; subst. rewrite R3 in Ha. rewrite R5 in Ha'. injection Ha as ->. injection Ha' as ->. rewrite R2. f_equal. apply H. now apply nth_error_In in Eb.
  - intros H b Hb. apply In_nth_error in Hb. destruct Hb as [i Hi]. destruct (F2 i b Hi) as (row & R1 & R2). inversion R1 as [|? ? ? ? R3 R4]; subst. inversion R4 as [|? ? ? ? R5 R6]; subst. inversion R6; subst. rewrite (H _ _ _ R3 R5) in R2. congruence.
Qed.

(** ** vstack, hstack, dstack, column_stack, concat and concatenate with axis=None *)
Theorem C88_lists : forall A B (g : list A -> option B) l r, xnp_list g l = Some r ->
  l <> [] /\ ((forall t, In t l -> is_inst t = true) /\ fieldwise g l r \/ (forall t, In t l -> is_inst t = false) /\ jnp_all g l = Some r).
Proof.
  intros A B g l r E. unfold xnp_list, homogeneous in E. destruct l as [|x l]; [discriminate|]. split; [discriminate|]. destruct (existsb is_inst (x :: l) && negb (forallb is_inst (x :: l))) eqn:EM; [discriminate|].
  destruct (forallb is_inst (x :: l)) eqn:EA.
  - left. rewrite forallb_forall in EA. split; [exact EA|]. now apply tree_map_fieldwise.
  - right. split; [|exact E]. rewrite andb_true_r in EM. intros t Ht. destruct (is_inst t) eqn:EI; [|reflexivity]. assert (existsb is_inst (x :: l) = true) by (apply existsb_exists; exists t; auto). congruence.
Qed.
Theorem C88_lists_mixture_raises : forall A B (g : list A -> option B) l s t, In s l -> In t l -> is_inst s = true -> is_inst t = false -> xnp_list g l = None.
Proof.
  intros A B g l s t Hs Ht H1 H2. destruct (xnp_list g l) as [r|] eqn:E; [exfalso|reflexivity]. destruct (C88_lists A B g l r E) as (_ & [[H _]|[H _]]); [rewrite (H t Ht) in H2|rewrite (H s Hs) in H1]; discriminate.
Qed.
Theorem C88_empty_list_raises : forall A B (g : list A -> option B), xnp_list g [] = None.
Proof. reflexivity. Qed.

(** ** where and update_on_condition *)
Lemma tree_eqb_iff s : forall t, tree_eqb s t = true <-> s = t.
Proof.
  induction s as [[]|k l IH] using tree_ind'; intros [[]|k' l']; cbn [tree_eqb]; [tauto|split; discriminate|split; discriminate|]. rewrite andb_true_iff.
  match goal with |- _ /\ ?X = true <-> _ => assert (K : X = true <-> l = l') end.
  { revert l'. induction IH as [|c l Hc HF IH2]; intros [|c' l']; [tauto|split; discriminate|split; discriminate|]. rewrite andb_true_iff, IH2, Hc. split; [intros [-> ->]; reflexivity|intros [= -> ->]; auto]. }
  rewrite K. destruct (kind_eq_dec k k') as [->|NE]; split; [intros [_ ->]; reflexivity|intros [= ->]; auto|intros [H _]; discriminate|intros [= H _]; contradiction].
Qed.
(** the value [b] is used in every field *)
Definition with_value {A B} (g : list A -> option B) (b : A) : list A -> option B := fun l => g (l ++ [b]).
(** a [where] with an instance returns only if [x] is an instance, and [y] is either an instance
    with the same structure, used field by field, or one value used in every field *)
Theorem C88_where : forall A B (asarray : tree A -> option A) (g : list A -> option B) x y r, is_inst x || is_inst y = true -> xnp_where asarray g x y = Some r ->
  is_inst x = true /\
  ((is_inst y = true /\ same_structure x y /\ fieldwise g [x; y] r) \/
   (is_inst y = false /\ exists b, asarray y = Some b /\ fieldwise (with_value g b) [x] r)).
Proof.
  intros A B asarray g x y r HI E. unfold xnp_where in E. rewrite HI in E. destruct (is_none x && is_none y); [discriminate|]. destruct (is_none x || is_none y); [discriminate|].
  destruct (is_inst y && negb (is_inst x)) eqn:E1; [discriminate|]. assert (HX : is_inst x = true) by (destruct (is_inst x), (is_inst y); cbn in *; congruence). rewrite HX in E. cbn [andb] in E. split; [exact HX|].
  destruct (is_inst y && negb (tree_eqb (kinds x) (kinds y))) eqn:E2; [discriminate|]. destruct ((1 <? length (leaves y)) || (length (leaves y) =? 1) && is_inst y) eqn:E3.
  - left. pose proof (tree_map_fieldwise g x [y] r E) as F. pose proof F as [F1 _]. pose proof (F1 x (or_introl eq_refl)) as Kx. pose proof (F1 y (or_intror (or_introl eq_refl))) as Ky.
    split; [rewrite (inst_kinds _ _ Ky), <- (inst_kinds _ _ Kx); exact HX|]. split; [unfold same_structure in *; congruence|exact F].
  - destruct (is_inst y) eqn:EY; [discriminate|]. right. split; [reflexivity|]. destruct (asarray y) as [b|]; [|discriminate]. exists b. split; [reflexivity|]. now apply tree_map_fieldwise.
Qed.
(** refutation: for a class without any field [where] raises, whatever the condition *)
Theorem C88_where_without_fields_refuted : forall A B (asarray : tree A -> option A) (g : list A -> option B) x y, is_inst y = true -> leaves y = [] -> xnp_where asarray g x y = None.
Proof.
  intros A B asarray g x y HY HL. unfold xnp_where. rewrite HY, HL, orb_true_r. destruct (is_none x && is_none y); [reflexivity|]. destruct (is_none x || is_none y); [reflexivity|]. destruct (true && negb (is_inst x)); [reflexivity|]. destruct (is_inst x && true && negb _); reflexivity.
Qed.
(** update_on_condition: the same, and an array is never updated with an instance *)
Theorem C88_update : forall A B (asarray : tree A -> option A) (g : list A -> option B) x v r, is_inst x || is_inst v = true -> xnp_update asarray g x v = Some r ->
  is_inst x = true /\
  ((is_inst v = true /\ same_structure x v /\ same_structure x r /\ fieldwise g [x; v] r) \/
   (is_inst v = false /\ (leaves r = [] \/ exists b, asarray v = Some b /\ fieldwise (with_value g b) [x] r))).
Proof.
  intros A B asarray g x v r HI E. unfold xnp_update in E. destruct (is_inst x) eqn:HX; [|cbn [orb] in HI; rewrite HI in E; discriminate]. split; [reflexivity|].
  destruct (is_inst v && negb (tree_eqb (kinds v) (kinds x))) eqn:E2; [discriminate|].
  assert (HS : is_inst v = true -> kinds v = kinds x) by (intros H; rewrite H in E2; cbn [andb] in E2; apply negb_false_iff in E2; now apply tree_eqb_iff).
  destruct ((1 <? length (leaves v)) || (length (leaves v) =? 1) && is_inst v) eqn:E3.
  - left. pose proof (tree_map_fieldwise g x [v] r E) as F. pose proof F as [F1 _]. pose proof (F1 x (or_introl eq_refl)) as Kx. pose proof (F1 v (or_intror (or_introl eq_refl))) as Kv.
    split; [rewrite (inst_kinds _ _ Kv), <- (inst_kinds _ _ Kx); exact HX|]. split; [unfold same_structure in *; congruence|]. split; [exact Kx|exact F].
  - pose proof (tree_map_fieldwise _ x [] r E) as F. pose proof F as [F1 F2]. pose proof (F1 x (or_introl eq_refl)) as Kx. destruct (is_inst v) eqn:HV.
    + left. specialize (HS eq_refl). split; [reflexivity|]. split; [symmetry; exact HS|]. split; [exact Kx|]. split; [intros t [<-|[<-|[]]]; unfold same_structure in *; congruence|].
      intros k b Hk. exfalso. pose proof (leaves_count _ _ Kx) as L1. pose proof (leaves_count _ _ HS) as L2. assert (k < length (leaves r)) by (apply nth_error_Some; congruence). rewrite andb_true_r in E3. apply orb_false_iff in E3. destruct E3 as [Q1 Q2]. apply Nat.ltb_ge in Q1. apply Nat.eqb_neq in Q2. lia.
    + right. split; [reflexivity|]. destruct (asarray v) as [b|].
      * right. exists b. split; [reflexivity|exact F].
      * left. destruct (leaves r) as [|c l] eqn:EL; [reflexivity|]. exfalso. destruct (F2 0 c) as (row & _ & R2); [reflexivity|discriminate].
Qed.

(** ** can_cast *)
(** the second argument is an instance of the same class, used field by field, or one dtype used
    for every field; an instance of another class raises (unless there is no field to ask about) *)
Theorem C88_can_cast : forall A (g : list A -> option bool) from to b, is_inst from = true -> xnp_can_cast g from to = Some b ->
  (same_structure from to /\ (b = true <-> forall i a a', nth_error (leaves from) i = Some a -> nth_error (leaves to) i = Some a' -> g [a; a'] = Some true)) \/
  (exists t, to = Leaf t /\ (b = true <-> forall a, In a (leaves from) -> g [a; t] = Some true)) \/
  (leaves from = [] /\ b = true).
Proof.
  intros A g from to b HI E. unfold xnp_can_cast in E. cbv zeta in E. destruct (tree_map (jnp g) from [to]) as [r|] eqn:ER.
  - left. cbn [option_map] in E. assert (E2 : xnp_allclose g from to = Some b) by (unfold xnp_allclose; rewrite HI; cbn [orb]; now rewrite ER). apply (C88_allclose A g from to b); [now left|exact E2].
  - right. destruct (tree_map _ from []) as [r|] eqn:ER2; [|discriminate]. cbn [option_map] in E. injection E as <-. destruct (tree_map_fieldwise _ from [] r ER2) as [F1 F2]. pose proof (F1 from (or_introl eq_refl)) as Kf. pose proof (leaves_count _ _ Kf) as LF.
    destruct to as [t|k l].
    + left. exists t. split; [reflexivity|]. rewrite forallb_forall. split.
      * intros H a Ha. apply In_nth_error in Ha. destruct Ha as [i Hi]. destruct (nth_error (leaves r) i) as [b|] eqn:Eb; [|apply nth_error_None in Eb; assert (i < length (leaves from)) by (apply nth_error_Some; congruence); lia].
        destruct (F2 i b Eb) as (row & R1 & R2). inversion R1 as [|? ? ? ? R3 R4]; subst. inversion R4; subst. rewrite R3 in Hi. injection Hi as ->. cbn [app] in R2. rewrite R2. f_equal. apply H. now apply nth_error_In in Eb.
      * intros H b Hb. apply In_nth_error in Hb. destruct Hb as [i Hi]. destruct (F2 i b Hi) as (row & R1 & R2). inversion R1 as [|? ? ? ? R3 R4]; subst. inversion R4; subst. cbn [app] in R2. rewrite (H _ (nth_error_In _ _ R3)) in R2. congruence.
    + right. destruct (leaves r) as [|c m] eqn:EL; [|exfalso; destruct (F2 0 c) as (row & _ & R2); [reflexivity|discriminate]]. split; [destruct (leaves from); [reflexivity|discriminate]|reflexivity].
Qed.

(** ** The calls that must not raise *)
(** the arrays at every place of trees of one structure are accepted by [g] *)
Definition accepts {A B} (g : list A -> option B) (ts : list (tree A)) : Prop :=
  forall row i, Forall2 (fun t a => nth_error (leaves t) i = Some a) ts row -> exists b, g row = Some b.
Lemma rows_exist {A} (x : tree A) rest : (forall t, In t rest -> kinds t = kinds x) -> forall i, i < length (leaves x) -> exists row, Forall2 (fun t a => nth_error (leaves t) i = Some a) (x :: rest) row.
Proof.
  intros HK i Hi. assert (X : forall ts : list (tree A), (forall t, In t ts -> kinds t = kinds x) -> exists row, Forall2 (fun t a => nth_error (leaves t) i = Some a) ts row).
  { induction ts as [|t ts IH]; intros H; [exists []; constructor|]. destruct IH as [row IH]; [intros u Hu; apply H; now right|]. destruct (nth_error (leaves t) i) as [a|] eqn:E; [exists (a :: row); now constructor|].
    apply nth_error_None in E. rewrite (leaves_count t x (H t (or_introl eq_refl))) in E. lia. }
  apply X. intros t [<-|H]; auto.
Qed.
Lemma tree_map_accepts {A B} (g : list A -> option B) (x : tree A) rest : (forall t, In t rest -> kinds t = kinds x) -> accepts g (x :: rest) -> exists r, tree_map (jnp g) x rest = Some r.
Proof. intros HK HA. apply tree_map_complete; [exact HK|]. intros i Hi. destruct (rows_exist x rest HK i Hi) as [row R]. destruct (HA row i R) as [b E]. now exists row, b. Qed.
Theorem C88_arrays : forall A B (g : list A -> option B) x rest, existsb is_inst (map (fun a => Leaf a) (x :: rest)) = false /\
  xnp_any g (Leaf x) (map (fun a => Leaf a) rest) = option_map (fun b => Leaf b) (g (x :: rest)).
Proof.
  intros A B g x rest. assert (H : existsb is_inst (map (fun a : A => Leaf a) (x :: rest)) = false) by (generalize (x :: rest); induction l as [|y l IH]; [reflexivity|exact IH]).
  split; [exact H|]. unfold xnp_any. cbn [map] in H. rewrite H. unfold jnp_all. replace (all_some as_leaf (Leaf x :: map (fun a => Leaf a) rest)) with (Some (x :: rest)); [reflexivity|]. symmetry. apply all_some_iff. constructor; [reflexivity|]. induction rest as [|y r IH]; cbn [map]; constructor; auto.
Qed.
Theorem C88_lists_returns : forall A B (g : list A -> option B) l x, In x l -> is_inst x = true -> (forall t, In t l -> same_structure t x) -> accepts g l -> exists r, xnp_list g l = Some r /\ fieldwise g l r.
Proof.
  intros A B g l x Hx HI HS HA. assert (HF : forallb is_inst l = true) by (apply forallb_forall; intros t Ht; rewrite (inst_kinds _ _ (HS t Ht)); exact HI).
  destruct l as [|y l]; [destruct Hx|]. destruct (tree_map_accepts g y l) as [r E]; [intros t Ht; transitivity (kinds x); [apply HS; now right|symmetry; apply HS; now left]|exact HA|].
  exists r. split; [|now apply tree_map_fieldwise]. unfold xnp_list, homogeneous. rewrite HF, andb_false_r. exact E.
Qed.
Theorem C88_allclose_returns : forall A (g : list A -> option bool) x y, is_inst x = true -> same_structure x y -> accepts g [x; y] -> exists b, xnp_allclose g x y = Some b.
Proof.
  intros A g x y HI HS HA. destruct (tree_map_accepts g x [y]) as [r E]; [intros t [<-|[]]; symmetry; exact HS|exact HA|]. unfold xnp_allclose. rewrite HI. cbn [orb]. rewrite E. eexists. reflexivity.
Qed.
Lemma inst_not_none {A} (t : tree A) : is_inst t = true -> is_none t = false.
Proof. now destruct t as [|[]]. Qed.
(** two instances of one structure with at least one array *)
Theorem C88_where_returns : forall A B (asarray : tree A -> option A) (g : list A -> option B) x y, is_inst x = true -> same_structure x y -> leaves x <> [] -> accepts g [x; y] ->
  exists r, xnp_where asarray g x y = Some r /\ fieldwise g [x; y] r.
Proof.
  intros A B asarray g x y HI HS HL HA. assert (HY : is_inst y = true) by (rewrite <- (inst_kinds _ _ HS); exact HI).
  destruct (tree_map_accepts g x [y]) as [r E]; [intros t [<-|[]]; symmetry; exact HS|exact HA|]. exists r. split; [|now apply tree_map_fieldwise].
  unfold xnp_where. rewrite HI, HY, !inst_not_none by assumption. cbn [andb orb negb]. rewrite (proj2 (tree_eqb_iff _ _) HS). cbn [negb]. rewrite andb_true_r.
  pose proof (leaves_count x y HS) as LC. destruct (leaves x) as [|a l]; [congruence|]. replace ((1 <? length (leaves y)) || (length (leaves y) =? 1)) with true; [exact E|]. rewrite <- LC. cbn [length]. symmetry. destruct l; reflexivity.
Qed.
(** an instance and one value: not a tree with several arrays in it, not None *)
Theorem C88_where_value_returns : forall A B (asarray : tree A -> option A) (g : list A -> option B) x y b, is_inst x = true -> is_inst y = false -> is_none y = false -> length (leaves y) <= 1 ->
  asarray y = Some b -> (forall a, In a (leaves x) -> exists v, g [a; b] = Some v) -> exists r, xnp_where asarray g x y = Some r /\ fieldwise (with_value g b) [x] r.
Proof.
  intros A B asarray g x y b HI HY HN HL HB HA. destruct (tree_map_accepts (with_value g b) x []) as [r E]; [intros t []| |].
  - intros row i R. inversion R as [|t a ts rw R1 R2]; subst. inversion R2; subst. apply HA. now apply nth_error_In in R1.
  - exists r. split; [|now apply tree_map_fieldwise]. unfold xnp_where. rewrite HI, HY, HN, !inst_not_none by assumption. cbn [andb orb negb]. rewrite andb_false_r, orb_false_r. destruct (Nat.ltb_spec 1 (length (leaves y))); [lia|]. rewrite HB. exact E.
Qed.
Theorem C88_update_returns : forall A B (asarray : tree A -> option A) (g : list A -> option B) x v, is_inst x = true -> same_structure v x -> accepts g [x; v] ->
  exists r, xnp_update asarray g x v = Some r /\ fieldwise g [x; v] r.
Proof.
  intros A B asarray g x v HI HS HA. assert (HV : is_inst v = true) by (rewrite (inst_kinds _ _ HS); exact HI).
  assert (E : exists r, xnp_update asarray g x v = Some r).
  { unfold xnp_update. rewrite HI, HV, (proj2 (tree_eqb_iff _ _) HS), andb_true_r. cbn [andb negb]. destruct ((1 <? length (leaves v)) || (length (leaves v) =? 1)) eqn:EC.
    - apply tree_map_accepts; [intros t [<-|[]]; exact HS|exact HA].
    - apply orb_false_iff in EC. destruct EC as [Q1 Q2]. apply Nat.ltb_ge in Q1. apply Nat.eqb_neq in Q2. pose proof (leaves_count _ _ HS) as LC. apply tree_map_accepts; [intros t []|]. intros row i R. inversion R as [|t a ts rw R1 R2]; subst. apply nth_error_In in R1. destruct (leaves x); [destruct R1|cbn in LC; lia]. }
  destruct E as [r E]. exists r. split; [exact E|]. destruct (C88_update A B asarray g x v r) as (_ & [(_ & _ & _ & F)|(F & _)]); [now rewrite HI|exact E|exact F|congruence].
Qed.
Theorem C88_update_value_returns : forall A B (asarray : tree A -> option A) (g : list A -> option B) x v b, is_inst x = true -> is_inst v = false -> length (leaves v) <= 1 ->
  asarray v = Some b -> (forall a, In a (leaves x) -> exists c, g [a; b] = Some c) -> exists r, xnp_update asarray g x v = Some r /\ fieldwise (with_value g b) [x] r.
Proof.
  intros A B asarray g x v b HI HV HL HB HA. destruct (tree_map_accepts (with_value g b) x []) as [r E]; [intros t []| |].
  - intros row i R. inversion R as [|t a ts rw R1 R2]; subst. inversion R2; subst. apply HA. now apply nth_error_In in R1.
  - exists r. split; [|now apply tree_map_fieldwise]. unfold xnp_update. rewrite HI, HV, HB. cbn [andb]. rewrite andb_false_r, orb_false_r. destruct (Nat.ltb_spec 1 (length (leaves v))); [lia|]. exact E.
Qed.
Theorem C88_can_cast_returns : forall A (g : list A -> option bool) from to, is_inst from = true ->
  (same_structure from to /\ accepts g [from; to]) \/ (exists t, to = Leaf t /\ forall a, In a (leaves from) -> exists b, g [a; t] = Some b) -> exists b, xnp_can_cast g from to = Some b.
Proof.
  intros A g from to HI H. unfold xnp_can_cast. cbv zeta. destruct (tree_map (jnp g) from [to]) as [r|] eqn:ER; [eexists; reflexivity|]. destruct H as [[HS HA]|(t & -> & HA)].
  - destruct (tree_map_accepts g from [to]) as [r E]; [intros t [<-|[]]; symmetry; exact HS|exact HA|congruence].
  - destruct (tree_map_accepts (with_value g t) from []) as [r E]; [intros u []| |].
    + intros row i R. inversion R as [|u a ts rw R1 R2]; subst. inversion R2; subst. apply HA. now apply nth_error_In in R1.
    + unfold with_value in E. rewrite E. eexists. reflexivity.
Qed.

(** ** Concrete uses: arrays are numbers, class 0 has two fields, class 1 the same two fields,
    class 2 a field of class 0 and a number, class 3 none *)
Definition same : list nat -> option bool := fun l => match l with [a; b] => Some (a =? b) | _ => None end.
Definition pick (c : bool) : list nat -> option nat := fun l => match l with [a; b] => Some (if c then a else b) | _ => None end.
Definition ex_asarray (t : tree nat) : option nat := match t with Leaf a => Some a | Node KList [Leaf a] => Some a | _ => None end.
Definition two_numbers (c a b : nat) : tree nat := Node (KInst c) [Leaf a; Leaf b].
Example C88_case :
  xnp_any same (Node (KInst 2) [two_numbers 0 1 2; Leaf 3]) [Node (KInst 2) [two_numbers 0 1 5; Leaf 3]] = Some (Node (KInst 2) [Node (KInst 0) [Leaf true; Leaf false]; Leaf true]) /\
  xnp_any same (two_numbers 0 1 2) [Leaf 1] = None /\ xnp_any same (Leaf 1) [two_numbers 0 1 2] = None /\
  xnp_any same (two_numbers 0 1 2) [two_numbers 1 1 2] = None /\ xnp_any same (Leaf 1) [Leaf 1] = Some (Leaf true) /\
  xnp_allclose same (two_numbers 0 1 2) (two_numbers 0 1 2) = Some true /\
  xnp_list same [two_numbers 0 1 2; Leaf 3] = None /\ xnp_list same [two_numbers 0 1 2; two_numbers 0 1 3] = Some (Node (KInst 0) [Leaf true; Leaf false]) /\
  xnp_where ex_asarray (pick false) (two_numbers 0 1 2) (Leaf 7) = Some (two_numbers 0 7 7) /\ xnp_where ex_asarray (pick false) (Leaf 7) (two_numbers 0 1 2) = None /\
  xnp_where ex_asarray (pick false) (two_numbers 0 1 2) (Node KList [Leaf 7]) = Some (two_numbers 0 7 7) /\ xnp_where ex_asarray (pick false) (two_numbers 0 1 2) (Node KList [Leaf 7; Leaf 8]) = None /\
  xnp_where ex_asarray (pick true) (Node (KInst 3) []) (Node (KInst 3) []) = None /\ xnp_update ex_asarray (pick true) (Node (KInst 3) []) (Node (KInst 3) []) = Some (Node (KInst 3) []) /\
  xnp_update ex_asarray (pick false) (two_numbers 0 1 2) (two_numbers 0 8 9) = Some (two_numbers 0 8 9) /\
  xnp_can_cast same (two_numbers 0 1 1) (Leaf 1) = Some true /\ xnp_can_cast same (two_numbers 0 1 1) (two_numbers 1 1 1) = None.
Proof. repeat (split; [reflexivity|]). reflexivity. Qed.
Print Assumptions C88_fieldwise. Print Assumptions C88_mixture_raises. Print Assumptions C88_returns. Print Assumptions C88_allclose. Print Assumptions C88_lists. Print Assumptions C88_where. Print Assumptions C88_update. Print Assumptions C88_can_cast.
Print Assumptions C88_where_returns. Print Assumptions C88_update_returns. Print Assumptions C88_can_cast_returns.
