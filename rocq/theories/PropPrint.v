(** * PropPrint.v — property C66: printing shows the right elements and all the fields. *)
From Coq Require Import String Ascii.
From Verif Require Import Jax StructModel ArrayModel ArrayFacts ShapeModel PropShape RowsModel RowsLift PropRows PropRows2 PropRows3 PropRows4 PrintModel.

(** ** Specification *)
(** the cells a reader expects: all of them, or the first two, dots, the last two *)
Definition abbreviated {X} (dots : X) (l : list X) : list X :=
  if length l <=? 4 then l else firstn 2 l ++ [dots] ++ skipn (length l - 2) l.
(** all indices of a batch shape in row-major order *)
Definition all_indices (B : list nat) : list (list nat) := map (unravel B) (seq 0 (prod B)).
Definition show (fmt : obj -> string) (o : obj) (b : list nat) : cell := Elt (fmt (elem b o)).

Lemma all_indices_complete B b : In b (all_indices B) <-> inb b B.
Proof.
  unfold all_indices. rewrite in_map_iff. split.
  - intros (k & <- & Hk). apply in_seq in Hk. apply unravel_inb. lia.
  - intros Hb. exists (ravel B b). split; [apply unravel_ravel; exact Hb|]. apply in_seq. pose proof (ravel_lt _ _ Hb). lia.
Qed.
Lemma all_indices_nodup B : NoDup (all_indices B).
Proof.
  unfold all_indices. apply (NoDup_map_inv (ravel B)). rewrite map_map.
  rewrite (map_ext_in _ (fun k => k)); [rewrite map_id; apply seq_NoDup|].
  intros k Hk. apply in_seq in Hk. apply ravel_unravel. lia.
Qed.

(** ** Cells *)
Lemma sequence_map {X Y} (f : X -> option Y) (g : X -> Y) l : (forall x, In x l -> f x = Some (g x)) ->
  sequence (map f l) = Some (map g l).
Proof.
  induction l as [|x t IH]; intros H; [reflexivity|]. cbn [map sequence]. rewrite (H x (or_introl eq_refl)).
  rewrite IH by (intros y Hy; apply H; right; exact Hy). reflexivity.
Qed.
Lemma sequence_app {X} (a b : list (option X)) : sequence (a ++ b) =
  match sequence a, sequence b with Some x, Some y => Some (x ++ y) | _, _ => None end.
Proof.
  induction a as [|[x|] t IH]; cbn [app sequence]; [destruct (sequence b); reflexivity| |reflexivity].
  rewrite IH. destruct (sequence t), (sequence b); reflexivity.
Qed.
Lemma slice_text_elem c B o b fmt : batched c B o -> inb b B -> slice_text fmt o b = Some (show fmt o b).
Proof.
  intros HB Hb. unfold slice_text. destruct (C41_elem c B o b HB Hb) as (e & E & _ & ->). rewrite E. reflexivity.
Qed.
Lemma firstn_seq k n : k <= n -> firstn k (seq 0 n) = seq 0 k.
Proof.
  intros H. replace n with (k + (n - k)) by lia. rewrite seq_app, firstn_app, seq_length, Nat.sub_diag.
  cbn [firstn]. rewrite app_nil_r. rewrite <- (seq_length k 0) at 1. apply firstn_all.
Qed.
Lemma skipn_seq k n : k <= n -> skipn k (seq 0 n) = seq k (n - k).
Proof.
  intros H. replace n with (k + (n - k)) at 1 by lia. rewrite seq_app, skipn_app, seq_length, Nat.sub_diag.
  cbn [skipn]. rewrite <- (seq_length k 0) at 1. rewrite skipn_all. reflexivity.
Qed.
Lemma abbreviated_map {X Y} (f : X -> Y) dots l :
  abbreviated (f dots) (map f l) = map f (abbreviated dots l).
Proof.
  unfold abbreviated. rewrite map_length. destruct (length l <=? 4); [reflexivity|].
  rewrite !map_app, firstn_map, skipn_map. reflexivity.
Qed.
Lemma show_indices_abbreviated n : show_indices n = abbreviated None (map Some (seq 0 n)).
Proof.
  unfold show_indices, abbreviated. rewrite map_length, seq_length. change (SHOW_BATCH_SIZE * 2) with 4.
  destruct (Nat.leb_spec n 4) as [H|H]; [reflexivity|].
  rewrite firstn_map, skipn_map, firstn_seq, skipn_seq by lia.
  replace (n - (n - 2)) with 2 by lia. reflexivity.
Qed.
Lemma in_abbreviated {X} (dots : X) l x : In x (abbreviated dots l) -> x = dots \/ In x l.
Proof.
  unfold abbreviated. destruct (length l <=? 4); [auto|]. intros H.
  apply in_app_or in H as [H|[H|H]]; [right|left; congruence|right].
  - rewrite <- (firstn_skipn 2 l). apply in_or_app. left. exact H.
  - rewrite <- (firstn_skipn (length l - 2) l). apply in_or_app. right. exact H.
Qed.

(** C66: a one-, three- or more-dimensional batch prints as one row of cells: every element in row-major
    order if there are at most four, otherwise the first two, dots, and the last two. *)
Theorem C66_line : forall c B o fmt, batched c B o -> get_batch c o = Some (Batch B) -> B <> [] -> length B <> 2 ->
  get_str c fmt o = Some (PTable [abbreviated Dots (map (show fmt o) (all_indices B))] B).
Proof.
  intros c B o fmt HB HG H0 H2. unfold get_str. rewrite HG.
  assert (HL : line_cells fmt o B = Some (abbreviated Dots (map (show fmt o) (all_indices B)))).
  { unfold line_cells, abbreviated, all_indices. rewrite !map_length, seq_length, map_map. change MAX_PRINT_BATCH_SIZE with 4.
    assert (HA : forall i, i < prod B -> slice_text fmt o (unravel B i) = Some (show fmt o (unravel B i))).
    { intros i Hi. apply (slice_text_elem c B); [exact HB|apply unravel_inb; exact Hi]. }
    destruct (Nat.leb_spec (prod B) 4) as [H4|H4].
    - apply (sequence_map _ (fun i => show fmt o (unravel B i))). intros i Hi. apply in_seq in Hi. apply HA. lia.
    - rewrite firstn_map, skipn_map, firstn_seq, skipn_seq by lia. replace (prod B - (prod B - 2)) with 2 by lia.
      change SHOW_BATCH_SIZE with 2. rewrite !sequence_app.
      rewrite (sequence_map _ (fun i => show fmt o (unravel B i)) (seq 0 2)) by (intros i Hi; apply in_seq in Hi; apply HA; lia).
      rewrite (sequence_map _ (fun i => show fmt o (unravel B i)) (seq (prod B - 2) 2)) by (intros i Hi; apply in_seq in Hi; apply HA; lia).
      reflexivity. }
  destruct B as [|d [|d2 [|d3 B]]]; [congruence| |cbn in H2; lia|]; rewrite HL; reflexivity.
Qed.

(** C66: a two-dimensional batch prints as a grid; rows and columns are abbreviated separately, and the cell
    in a shown row and column is the element with those indices. *)
Theorem C66_grid : forall c r k o fmt, batched c [r; k] o -> get_batch c o = Some (Batch [r; k]) ->
  get_str c fmt o = Some (PTable
    (abbreviated (map (fun _ => Dots) (abbreviated None (map Some (seq 0 k))))
       (map (fun i => abbreviated Dots (map (fun j => show fmt o [i; j]) (seq 0 k))) (seq 0 r))) [r; k]).
Proof.
  intros c r k o fmt HB HG. unfold get_str. rewrite HG. unfold grid_cells.
  set (rowf := fun i => match i with
    | None => map (fun _ : option nat => Dots) (show_indices k)
    | Some i => map (fun j => match j with None => Dots | Some j => show fmt o [i; j] end) (show_indices k)
    end).
  rewrite (sequence_map _ rowf).
  - cbn [option_map]. do 2 f_equal. rewrite show_indices_abbreviated. rewrite <- abbreviated_map. rewrite map_map.
    unfold rowf at 1. rewrite show_indices_abbreviated. f_equal. apply map_ext. intros i. unfold rowf.
    rewrite show_indices_abbreviated. rewrite <- (abbreviated_map (fun j => match j with None => Dots | Some j => show fmt o [i; j] end)).
    rewrite map_map. reflexivity.
  - intros [i|] Hi; [|reflexivity]. unfold rowf. apply sequence_map. intros [j|] Hj; [|reflexivity].
    apply (slice_text_elem c [r; k]); [exact HB|].
    rewrite show_indices_abbreviated in Hi, Hj.
    apply in_abbreviated in Hi as [Hi|Hi]; [discriminate Hi|]. apply in_abbreviated in Hj as [Hj|Hj]; [discriminate Hj|].
    apply in_map_iff in Hi as (i' & Ei & Hi). injection Ei as ->. apply in_seq in Hi.
    apply in_map_iff in Hj as (j' & Ej & Hj). injection Ej as ->. apply in_seq in Hj.
    repeat (apply inb_cons; split; [lia|]). constructor.
Qed.

(** C66: so a small batch hides nothing: every element is shown exactly once. *)
Theorem C66_small_batches_show_everything : forall c B o fmt, batched c B o -> get_batch c o = Some (Batch B) ->
  B <> [] -> length B <> 2 -> prod B <= 4 ->
  exists idxs, get_str c fmt o = Some (PTable [map (show fmt o) idxs] B) /\ NoDup idxs /\ (forall b, In b idxs <-> inb b B).
Proof.
  intros c B o fmt HB HG H0 H2 H4. exists (all_indices B). split; [|split; [apply all_indices_nodup|intros b; apply all_indices_complete]].
  rewrite (C66_line c B o fmt HB HG H0 H2). unfold abbreviated. rewrite map_length. unfold all_indices at 1. rewrite map_length, seq_length.
  destruct (Nat.leb_spec (prod B) 4); [reflexivity|lia].
Qed.

(** C66: a single instance is formatted by the single-item formatter, and what the class's own formatter
    sees of the caller's keyword arguments: [str(x)] / [x.__str__(...)] pass none, [x.str(...)] all of them. *)
Theorem C66_single_and_keywords : forall (KW : Type) (no_kw kw : KW) fmt c o,
  dunder_str no_kw fmt c o kw = get_str c (fmt no_kw) o /\ method_str fmt c o kw = get_str c (fmt kw) o /\
  (get_batch c o = Some (Batch []) -> method_str fmt c o kw = Some (PSingle (fmt kw o))) /\
  (get_batch c o = Some Unstr -> method_str fmt c o kw = Some PUnstructured).
Proof.
  intros KW no_kw kw fmt c o. split; [reflexivity|]. split; [reflexivity|].
  split; intros HG; unfold method_str, get_str; rewrite HG; reflexivity.
Qed.

(** ** The default single-item formatter, line by line *)
Open Scope string_scope.
Lemma app_str_assoc a b c : (a ++ b) ++ c = a ++ (b ++ c).
Proof. induction a as [|x a IH]; [reflexivity|]. cbn [append]. now rewrite IH. Qed.
Lemma app_str_nil a : a ++ "" = a.
Proof. induction a as [|x a IH]; [reflexivity|]. cbn [append]. now rewrite IH. Qed.
Lemma lines_nonempty s : lines s <> [].
Proof. destruct s as [|c s]; cbn [lines]; [discriminate|]. destruct (Ascii.eqb c nl); [discriminate|]. destruct (lines s); discriminate. Qed.
Lemma lines_flat s : has_nl s = false -> lines s = [s].
Proof.
  induction s as [|c s IH]; [reflexivity|]. cbn [has_nl lines]. intros H. apply orb_false_iff in H as [H1 H2].
  rewrite H1, (IH H2). reflexivity.
Qed.
Lemma lines_sep a b : lines (a ++ String nl b) = (lines a ++ lines b)%list.
Proof.
  induction a as [|c a IH]; [reflexivity|]. cbn [append lines]. rewrite IH. destruct (Ascii.eqb c nl); [reflexivity|].
  destruct (lines a) as [|l ls] eqn:E; [now apply lines_nonempty in E|]. reflexivity.
Qed.
Lemma lines_app_flat a b : has_nl a = false -> lines (a ++ b) = match lines b with [] => [a] | l :: ls => (a ++ l) :: ls end.
Proof.
  induction a as [|c a IH]; intros H.
  - cbn [append]. destruct (lines b) eqn:E; [now apply lines_nonempty in E|]. reflexivity.
  - cbn [has_nl] in H. apply orb_false_iff in H as [H1 H2]. cbn [append lines]. rewrite H1, (IH H2).
    destruct (lines b); reflexivity.
Qed.
Lemma lines_have_no_nl s l : In l (lines s) -> has_nl l = false.
Proof.
  revert l. induction s as [|c s IH]; intros l H; cbn [lines] in H.
  - destruct H as [<-|[]]. reflexivity.
  - destruct (Ascii.eqb c nl) eqn:E.
    + destruct H as [<-|H]; [reflexivity|auto].
    + destruct (lines s) as [|l0 ls] eqn:EL; [now apply lines_nonempty in EL|].
      destruct H as [<-|H]; [|apply IH; right; exact H]. cbn [has_nl]. rewrite E. apply IH. left. reflexivity.
Qed.
Lemma has_nl_app a b : has_nl (a ++ b) = has_nl a || has_nl b.
Proof. induction a as [|c a IH]; [reflexivity|]. cbn [append has_nl]. rewrite IH. apply orb_assoc. Qed.
Lemma lines_join ls : ls <> [] -> (forall l, In l ls -> has_nl l = false) -> lines (join nls ls) = ls.
Proof.
  induction ls as [|a r IH]; intros H0 H; [congruence|]. destruct r as [|b r].
  - cbn [join]. apply lines_flat, H. left. reflexivity.
  - change (join nls (a :: b :: r)) with (a ++ (nls ++ join nls (b :: r))).
    change (nls ++ join nls (b :: r)) with (String nl (join nls (b :: r))). rewrite lines_sep.
    rewrite IH; [|discriminate|intros l Hl; apply H; right; exact Hl].
    rewrite lines_flat by (apply H; left; reflexivity). reflexivity.
Qed.

(** Specification: the lines shown for one field. *)
Definition field_lines (f : string * string) : list string :=
  if has_nl (snd f) then ("  " ++ fst f ++ ": ") :: map (fun l => "    " ++ l) (lines (snd f))
  else ["  " ++ fst f ++ ": " ++ snd f].
(** a comma after the last line of every field but the last *)
Fixpoint comma_last (ls : list string) : list string :=
  match ls with [] => [] | [l] => [l ++ ","] | l :: r => l :: comma_last r end.
Fixpoint body_lines (fs : list (string * string)) : list string :=
  match fs with
  | [] => []
  | [f] => field_lines f
  | f :: r => (comma_last (field_lines f) ++ body_lines r)%list
  end.

Lemma lines_comma s : lines (s ++ ",") = comma_last (lines s).
Proof.
  induction s as [|c s IH]; [reflexivity|]. cbn [append lines]. rewrite IH. destruct (Ascii.eqb c nl).
  - destruct (lines s) as [|l ls] eqn:E; [now apply lines_nonempty in E|]. reflexivity.
  - destruct (lines s) as [|l [|l2 ls]] eqn:E; [now apply lines_nonempty in E|reflexivity|reflexivity].
Qed.
Lemma lines_part f : has_nl (fst f) = false -> lines (field_part f) = field_lines f.
Proof.
  destruct f as [name v]. cbn [fst]. intros Hn. unfold field_part, field_lines. cbn [fst snd].
  destruct (has_nl v) eqn:E.
  - change (nls ++ ?x) with (String nl x).
    replace ("  " ++ name ++ ": " ++ String nl (join nls (map (fun l => "    " ++ l) (lines v))))
      with (("  " ++ name ++ ": ") ++ String nl (join nls (map (fun l => "    " ++ l) (lines v)))) by now rewrite !app_str_assoc.
    rewrite lines_sep, lines_join.
    + rewrite lines_flat; [reflexivity|]. rewrite !has_nl_app, Hn. reflexivity.
    + intros HE. apply map_eq_nil in HE. now apply lines_nonempty in HE.
    + intros l Hl. apply in_map_iff in Hl as (l0 & <- & Hl). rewrite has_nl_app, (lines_have_no_nl v l0 Hl). reflexivity.
  - apply lines_flat. rewrite !has_nl_app, Hn, E. reflexivity.
Qed.

(** C66: the text of a single instance: the class name, then every field in declaration order with its name
    and its value's text (multi-line texts indented below the name), then a closing line. *)
Theorem C66_single_instance_text : forall cls fs, fs <> [] -> has_nl cls = false ->
  (forall f, In f fs -> has_nl (fst f) = false) ->
  lines (pretty cls fs) = app ((cls ++ "(") :: body_lines fs) [")"].
Proof.
  intros cls fs H0 Hc Hn. unfold pretty.
  assert (HB : lines (join ("," ++ nls) (map field_part fs)) = body_lines fs).
  { clear Hc. induction fs as [|f r IH]; [congruence|]. destruct r as [|g r].
    - cbn [map join body_lines]. apply lines_part, Hn. left. reflexivity.
    - change (body_lines (f :: g :: r)) with (comma_last (field_lines f) ++ body_lines (g :: r))%list.
      change (join ("," ++ nls) (map field_part (f :: g :: r)))
        with (field_part f ++ ("," ++ nls) ++ join ("," ++ nls) (map field_part (g :: r))).
      replace (field_part f ++ ("," ++ nls) ++ join ("," ++ nls) (map field_part (g :: r)))
        with ((field_part f ++ ",") ++ String nl (join ("," ++ nls) (map field_part (g :: r)))) by (rewrite !app_str_assoc; reflexivity).
      rewrite lines_sep, lines_comma, lines_part by (apply Hn; left; reflexivity).
      rewrite IH; [reflexivity|discriminate|]. intros h Hh. apply Hn. right. exact Hh. }
  replace (match fs with [] => cls ++ "()" | _ => cls ++ "(" ++ nls ++ join ("," ++ nls) (map field_part fs) ++ nls ++ ")" end)
    with (cls ++ "(" ++ nls ++ join ("," ++ nls) (map field_part fs) ++ nls ++ ")") by (destruct fs; [congruence|reflexivity]).
  replace (cls ++ "(" ++ nls ++ join ("," ++ nls) (map field_part fs) ++ nls ++ ")")
    with ((cls ++ "(") ++ String nl (join ("," ++ nls) (map field_part fs) ++ String nl ")")) by (rewrite !app_str_assoc; reflexivity).
  rewrite !lines_sep, HB. rewrite lines_flat by (rewrite has_nl_app, Hc; reflexivity). reflexivity.
Qed.

Lemma app_str_cancel a b c : a ++ b = a ++ c -> b = c.
Proof. induction a as [|x a IH]; [auto|]. cbn [append]. intros H. injection H as H. auto. Qed.
Lemma app_char_cancel x a b : a ++ String x "" = b ++ String x "" -> a = b.
Proof.
  revert b. induction a as [|c a IH]; intros [|e b] H.
  - reflexivity.
  - cbn [append] in H. injection H as _ H. destruct b; discriminate H.
  - cbn [append] in H. injection H as _ H. destruct a; discriminate H.
  - cbn [append] in H. injection H as -> H. f_equal. apply IH. exact H.
Qed.

Lemma join_lines v : join nls (lines v) = v.
Proof.
  induction v as [|c v IH]; [reflexivity|]. cbn [lines]. destruct (lines v) as [|l ls] eqn:E; [now apply lines_nonempty in E|].
  destruct (Ascii.eqb c nl) eqn:EC.
  - apply Ascii.eqb_eq in EC. subst c. change (join nls ("" :: l :: ls)) with (String nl (join nls (l :: ls))). now rewrite IH.
  - destruct ls as [|l2 ls].
    + cbn [join] in *. now rewrite IH.
    + change (join nls (String c l :: l2 :: ls)) with (String c (join nls (l :: l2 :: ls))). now rewrite IH.
Qed.
(** continuation lines start with four spaces, headers do not *)
Definition cont (l : string) : bool :=
  match l with
  | String a (String b (String c (String d _))) => (Ascii.eqb a " " && Ascii.eqb b " " && Ascii.eqb c " " && Ascii.eqb d " ")%char
  | _ => false
  end.
Lemma cont_indent l : cont ("    " ++ l) = true.
Proof. reflexivity. Qed.
Definition starts_with_space (n : string) : bool := match n with String c _ => Ascii.eqb c " " | _ => false end.
Lemma header_not_cont n t : starts_with_space n = false -> cont ("  " ++ n ++ ": " ++ t) = false.
Proof.
  unfold cont. destruct n as [|c [|c2 n]]; [reflexivity| |]; cbn [append starts_with_space]; intros ->; cbn; reflexivity.
Qed.
Lemma split_cont (a b x y : list string) : forallb cont a = true -> forallb cont b = true ->
  (match x with [] => true | l :: _ => negb (cont l) end) = true -> (match y with [] => true | l :: _ => negb (cont l) end) = true ->
  (a ++ x)%list = (b ++ y)%list -> a = b /\ x = y.
Proof.
  revert b. induction a as [|l a IH]; intros [|m b] Ha Hb Hx Hy E; cbn [app] in E.
  - auto.
  - cbn [forallb] in Hb. apply andb_true_iff in Hb as [Hb _]. subst x. rewrite Hb in Hx. discriminate Hx.
  - cbn [forallb] in Ha. apply andb_true_iff in Ha as [Ha _]. subst y. rewrite Ha in Hy. discriminate Hy.
  - injection E as -> E. cbn [forallb] in Ha, Hb. apply andb_true_iff in Ha as [_ Ha]. apply andb_true_iff in Hb as [_ Hb].
    destruct (IH b Ha Hb Hx Hy E) as [-> ->]. auto.
Qed.
Lemma comma_last_inj a b : comma_last a = comma_last b -> a = b.
Proof.
  revert b. induction a as [|l a IH]; intros [|m b] E.
  - reflexivity.
  - destruct b; discriminate E.
  - destruct a; discriminate E.
  - destruct a as [|l2 a], b as [|m2 b]; cbn [comma_last] in E.
    + injection E as E. apply (app_char_cancel ",") in E. now rewrite E.
    + injection E as _ E. destruct b; discriminate E.
    + injection E as _ E. destruct a; discriminate E.
    + assert (E1 : l = m) by exact (f_equal (hd "") E). assert (E2 : comma_last (l2 :: a) = comma_last (m2 :: b)) by exact (f_equal (@tl string) E).
      apply IH in E2. congruence.
Qed.
Lemma comma_cont l : cont l = true -> cont (l ++ ",") = true.
Proof.
  destruct l as [|a [|b [|c [|d l]]]]; try discriminate. intros H. exact H.
Qed.
Lemma comma_last_conts a : forallb cont a = true -> forallb cont (comma_last a) = true.
Proof.
  induction a as [|l a IH]; intros H; [reflexivity|]. cbn [forallb] in H. apply andb_true_iff in H as [H1 H2].
  destruct a as [|m a]; [cbn [comma_last forallb]; rewrite comma_cont by exact H1; reflexivity|].
  change (comma_last (l :: m :: a)) with (l :: comma_last (m :: a)). cbn [forallb]. rewrite H1. apply IH. exact H2.
Qed.
Lemma field_lines_head f : exists h t, field_lines f = h :: t /\ forallb cont t = true /\
  exists u, h = "  " ++ fst f ++ ": " ++ u.
Proof.
  unfold field_lines. destruct (has_nl (snd f)).
  - do 2 eexists. split; [reflexivity|]. split; [|exists ""; reflexivity].
    apply forallb_forall. intros l Hl. apply in_map_iff in Hl as (l0 & <- & _). apply cont_indent.
  - do 2 eexists. split; [reflexivity|]. split; [reflexivity|eexists; reflexivity].
Qed.
Lemma field_lines_inj n v w : field_lines (n, v) = field_lines (n, w) -> v = w.
Proof.
  unfold field_lines. cbn [fst snd]. destruct (has_nl v) eqn:Ev, (has_nl w) eqn:Ew; intros E.
  - injection E as E. rewrite <- (join_lines v), <- (join_lines w). f_equal.
    revert E. generalize (lines v) (lines w). induction l as [|a l IH]; intros [|b m] E; try discriminate E; [reflexivity|].
    cbn [map] in E. injection E as E1 E2. subst b. f_equal. apply IH; exact E2.
  - exfalso. injection E as _ E. destruct (lines v) eqn:EL; [now apply lines_nonempty in EL|discriminate E].
  - exfalso. injection E as _ E. destruct (lines w) eqn:EL; [now apply lines_nonempty in EL|discriminate E].
  - assert (E1 : "  " ++ n ++ ": " ++ v = "  " ++ n ++ ": " ++ w) by exact (f_equal (hd "") E).
    apply app_str_cancel, app_str_cancel, app_str_cancel in E1. exact E1.
Qed.
Lemma body_head names us : (forall n, In n names -> starts_with_space n = false) ->
  (match body_lines (combine names us) with [] => true | l :: _ => negb (cont l) end) = true.
Proof.
  intros Hn. destruct names as [|n names]; [reflexivity|]. destruct us as [|u us]; [reflexivity|].
  cbn [combine]. destruct (field_lines_head (n, u)) as (h & t & E & _ & u0 & EU). cbn [fst] in EU.
  assert (HS : starts_with_space n = false) by (apply Hn; left; reflexivity).
  destruct (combine names us) as [|g r]; cbn [body_lines].
  - rewrite E, EU, header_not_cont by exact HS. reflexivity.
  - rewrite E. destruct t as [|l t]; cbn [comma_last app]; rewrite EU.
    + rewrite !app_str_assoc. rewrite header_not_cont by exact HS. reflexivity.
    + rewrite header_not_cont by exact HS. reflexivity.
Qed.

(** C66: hence two instances of one class print the same only if every field has the same text, even when
    texts span several lines (names are identifiers: no line break, not starting with a space). *)
Theorem C66_text_determines_fields : forall cls names vs ws,
  has_nl cls = false -> (forall n, In n names -> has_nl n = false /\ starts_with_space n = false) ->
  length vs = length names -> length ws = length names ->
  pretty cls (combine names vs) = pretty cls (combine names ws) -> vs = ws.
Proof.
  intros cls names vs ws Hc Hn Lv Lw E.
  destruct names as [|n0 names0] eqn:EN; [destruct vs, ws; try discriminate; reflexivity|]. rewrite <- EN in *.
  assert (Hne : forall us : list string, length us = length names -> combine names us <> []).
  { intros us HL. subst names. destruct us; [discriminate HL|discriminate]. }
  assert (Hnn : forall (us : list string) f, In f (combine names us) -> has_nl (fst f) = false).
  { intros us [a b] H. apply in_combine_l in H. apply Hn; exact H. }
  assert (EB : body_lines (combine names vs) = body_lines (combine names ws)).
  { apply (f_equal lines) in E. rewrite !C66_single_instance_text in E by (auto; apply Hnn).
    injection E as E. apply app_inv_tail in E. exact E. }
  clear E Hc Hne Hnn n0 names0 EN.
  revert vs ws Lv Lw EB. induction names as [|n names IH]; intros vs ws Lv Lw EB.
  - destruct vs, ws; try discriminate; reflexivity.
  - destruct vs as [|v vs]; [discriminate|]. destruct ws as [|w ws]; [discriminate|].
    cbn [length] in Lv, Lw. destruct names as [|m names].
    + destruct vs; [|discriminate]. destruct ws; [|discriminate]. cbn [combine body_lines] in EB.
      apply field_lines_inj in EB. now subst.
    + destruct vs as [|v2 vs]; [discriminate|]. destruct ws as [|w2 ws]; [discriminate|].
      change (body_lines (combine (n :: m :: names) (v :: v2 :: vs))) with
        (comma_last (field_lines (n, v)) ++ body_lines (combine (m :: names) (v2 :: vs)))%list in EB.
      change (body_lines (combine (n :: m :: names) (w :: w2 :: ws))) with
        (comma_last (field_lines (n, w)) ++ body_lines (combine (m :: names) (w2 :: ws)))%list in EB.
      pose proof (body_head (m :: names) (v2 :: vs) ltac:(intros a Ha; apply Hn; right; exact Ha)) as Hv.
      pose proof (body_head (m :: names) (w2 :: ws) ltac:(intros a Ha; apply Hn; right; exact Ha)) as Hw.
      destruct (field_lines_head (n, v)) as (h1 & t1 & F1 & C1 & _).
      destruct (field_lines_head (n, w)) as (h2 & t2 & F2 & C2 & _).
      assert (HH : exists g1 s1 g2 s2, comma_last (field_lines (n, v)) = g1 :: s1 /\ comma_last (field_lines (n, w)) = g2 :: s2 /\
                     forallb cont s1 = true /\ forallb cont s2 = true).
      { rewrite F1, F2. destruct t1 as [|a1 t1], t2 as [|a2 t2]; cbn [comma_last]; do 4 eexists; (split; [reflexivity|]; split; [reflexivity|]);
        (split; [first [reflexivity | apply (comma_last_conts (_ :: _)); assumption] | first [reflexivity | apply (comma_last_conts (_ :: _)); assumption]]). }
      destruct HH as (g1 & s1 & g2 & s2 & G1 & G2 & D1 & D2). rewrite G1, G2 in EB. cbn [app] in EB.
      assert (Eg : g1 = g2) by exact (f_equal (hd "") EB). apply (f_equal (@tl string)) in EB. cbn [tl] in EB.
      destruct (split_cont _ _ _ _ D1 D2 Hv Hw EB) as [Es Er].
      assert (EF : comma_last (field_lines (n, v)) = comma_last (field_lines (n, w))) by congruence.
      apply comma_last_inj, field_lines_inj in EF. subst w. f_equal.
      apply IH; [intros a Ha; apply Hn; right; exact Ha|cbn [length] in *; lia|cbn [length] in *; lia|exact Er].
Qed.

(** concrete cases *)
Example C66_case_text :
  lines (pretty "P" [("x", "1"); ("m", "[0 1]" ++ String nl "[2 3]"); ("y", "7")]) =
  ["P("; "  x: 1,"; "  m: "; "    [0 1]"; "    [2 3],"; "  y: 7"; ")"].
Proof. reflexivity. Qed.
Close Scope string_scope.
(** six cells in a line: the first two and the last two are shown; five rows of two: rows abbreviated only *)
Definition fmt1 (o : obj) : string := match o with OCons _ v _ => match v with VArr a => match adata a with z :: _ => if Z.ltb z 3 then "low" else "high" | [] => "" end | VObj _ => "" end | ONil => "" end%string.
Definition six : obj := (OCons "id" (arr8 [6] [1; 2; 3; 4; 5; 6]%Z) (OCons "pos" (arr8 [6; 2] [1; 2; 3; 4; 5; 6; 7; 8; 9; 10; 11; 12]%Z) ONil))%string.
Definition tall : obj := (OCons "id" (arr8 [5; 2] [1; 2; 3; 4; 5; 6; 7; 8; 9; 0]%Z) (OCons "pos" (arr8 [5; 2; 2] [1; 2; 3; 4; 5; 6; 7; 8; 9; 10; 11; 12; 13; 14; 15; 16; 17; 18; 19; 20]%Z) ONil))%string.
Example C66_case_line : batched PropRows4.cell [6] six /\ get_batch PropRows4.cell six = Some (Batch [6]) /\
  get_str PropRows4.cell fmt1 six = Some (PTable [[Elt "low"; Elt "low"; Dots; Elt "high"; Elt "high"]] [6])%string.
Proof. split; [split; cbn; unfold wfa; cbn; auto 10|]. split; reflexivity. Qed.
Example C66_case_grid : batched PropRows4.cell [5; 2] tall /\ get_batch PropRows4.cell tall = Some (Batch [5; 2]) /\
  get_str PropRows4.cell fmt1 tall = Some (PTable [[Elt "low"; Elt "low"]; [Elt "high"; Elt "high"]; [Dots; Dots]; [Elt "high"; Elt "high"]; [Elt "high"; Elt "low"]] [5; 2])%string.
Proof. split; [split; cbn; unfold wfa; cbn; auto 10|]. split; reflexivity. Qed.
Print Assumptions C66_line. Print Assumptions C66_grid. Print Assumptions C66_small_batches_show_everything.
Print Assumptions C66_single_and_keywords. Print Assumptions C66_single_instance_text. Print Assumptions C66_text_determines_fields.
