(** Proofs of C79: reading STL files. *)
From Coq Require Import ZArith Lia.
From stdpp Require Import prelude list.
From Verif Require Import Common Slicer_Model Box_Model Mesh_Model Mesh_Spec Mesh_Proofs Mesh_Props Stl_Model Stl_Spec.
Open Scope Z_scope.

(** * Lines *)
Lemma line_end_eq c : (c =? 10) || (c =? 13) = line_end c.
Proof. unfold line_end. destruct (Z.eqb_spec c 10), (Z.eqb_spec c 13); cbn; symmetry; (apply bool_decide_eq_true_2 + apply bool_decide_eq_false_2); lia. Qed.
Lemma fgets_some : forall len f r cur, fgets_ len f = Some r ->
  ended_lines cur f = (cur ++ r.1) :: ended_lines [] r.2 /\ (length r.1 < len)%nat /\ (length r.2 < length f)%nat.
Proof.
  induction len as [|len IH]; intros [|c f] r cur E; cbn [fgets_] in E; try done. rewrite line_end_eq in E. cbn [ended_lines length]. destruct (line_end c).
  - injection E as <-. cbn. rewrite app_nil_r. split; [done|]. lia.
  - destruct (fgets_ len f) as [r'|] eqn:E'; [|done]. injection E as <-. cbn [fst snd]. destruct (IH f r' (cur ++ [c]) E') as (-> & ? & ?).
    rewrite <- app_assoc. cbn [app length]. split; [done|]. lia.
Qed.
Lemma fgets_none : forall len f cur, fgets_ len f = None ->
  ended_lines cur f = [] \/ exists l ls, ended_lines cur f = (cur ++ l) :: ls /\ (len <= length l)%nat.
Proof.
  induction len as [|len IH]; intros f cur E.
  - clear E. revert cur. induction f as [|c f IH]; intros cur; cbn [ended_lines]; [by left|]. destruct (line_end c).
    + right. exists [], (ended_lines [] f). rewrite app_nil_r. split; [done|]. lia.
    + destruct (IH (cur ++ [c])) as [?|(l & ls & -> & _)]; [by left|]. right. exists (c :: l), ls. rewrite <- app_assoc. split; [done|]. lia.
  - destruct f as [|c f]; [by left|]. cbn [fgets_] in E. rewrite line_end_eq in E. cbn [ended_lines]. destruct (line_end c); [done|].
    destruct (fgets_ len f) as [|] eqn:E'; [done|]. destruct (IH f (cur ++ [c]) E') as [?|(l & ls & -> & ?)]; [by left|].
    right. exists (c :: l), ls. rewrite <- app_assoc. cbn [app length]. split; [done|]. lia.
Qed.
Lemma text_lines_fgets f : text_lines f = match fgets_ 1024 f with None => [] | Some r => r.1 :: text_lines r.2 end.
Proof.
  unfold text_lines. destruct (fgets_ 1024 f) as [r|] eqn:E.
  - destruct (fgets_some _ _ _ [] E) as (-> & ? & _). cbn [app before_long]. by rewrite bool_decide_eq_true_2 by lia.
  - destruct (fgets_none _ _ [] E) as [-> |(l & ls & -> & ?)]; [done|]. cbn [app before_long]. by rewrite bool_decide_eq_false_2 by lia.
Qed.

(** * Text files *)
Section text.
  Context (vertex : list Z -> option pt3).
  Definition pending (n : nat) (v0 v1 : pt3) : list pt3 := match n with 0 => [] | 1 => [v0] | _ => [v0; v1] end%nat.
  Lemma ascii_ok : forall fuel f n v0 v1 b, (length f < fuel)%nat -> (n <= 2)%nat ->
    ascii_loop vertex fuel f n v0 v1 b = add_faces b (by_three (pending n v0 v1 ++ omap vertex (text_lines f))).
  Proof.
    induction fuel as [|fuel IH]; intros f n v0 v1 b Hf Hn; [lia|]. cbn [ascii_loop]. rewrite text_lines_fgets.
    destruct (fgets_ 1024 f) as [r|] eqn:E.
    2: { cbn [omap list_omap]. by destruct n as [|[|[|n]]]. }
    destruct (fgets_some _ _ _ [] E) as (_ & _ & Hl). cbn [omap list_omap]. destruct (vertex r.1) as [v|] eqn:Ev.
    2: { rewrite IH by lia. done. }
    destruct n as [|[|[|n]]]; [| | |lia].
    - rewrite IH by lia. done.
    - rewrite IH by lia. done.
    - cbn [pending app by_three add_faces fst snd]. destruct (addFace b v0 v1 v) as [b'| |]; cbn [rbind]; [|done|done]. rewrite IH by lia. done.
  Qed.
End text.

(** * Binary files *)
Section binary.
  Context (point : list Z -> pt3) (F : list Z).
  Lemma read_faces_ok : forall n i b, (84 + 50 * (i + n) <= length F)%nat ->
    read_faces point n (drop (84 + 50 * i) F) b = (let! b' := add_faces b (map (binary_triangle point F) (seq i n)) in Ok (Some b')).
  Proof.
    induction n as [|n IH]; intros i b Hl; [done|]. cbn [read_faces seq map add_faces].
    unfold fread. assert ((50 <=? length (drop (84 + 50 * i) F))%nat = true) as -> by (apply Nat.leb_le; rewrite drop_length; lia). cbv zeta. cbn [fst snd].
    assert (Ht : forall k, (k <= 2)%nat -> take 12 (drop (12 + 12 * k) (take 50 (drop (84 + 50 * i) F))) = bytes (84 + 50 * i + 12 + 12 * k) 12 F).
    { intros k Hk. unfold bytes. rewrite skipn_firstn_comm, take_take, drop_drop. f_equal; [lia|]. f_equal. lia. }
    rewrite !Ht by lia. unfold binary_triangle at 1. cbv zeta. cbn [fst snd].
    destruct (addFace b _ _ _) as [b'| |]; cbn [rbind]; [|done|done].
    rewrite drop_drop. replace (84 + 50 * i + 50)%nat with (84 + 50 * S i)%nat by lia. apply IH. lia.
  Qed.
End binary.

(** * The box does not matter *)
Lemma find_box b v box : findIndexOfVertex (Building (bmesh b) (bhash b) box) v =
  (let! r := findIndexOfVertex b v in Ok (r.1, Building (bmesh r.2) (bhash r.2) (if decide (length (mvertices (bmesh r.2)) = length (mvertices (bmesh b))) then box else aabb3_include box v))).
Proof.
  unfold findIndexOfVertex. cbn [bmesh bhash bbox]. destruct (first_close _ _ _) as [[k|]| |]; cbn [rbind fst snd bmesh bhash bbox]; try done.
  - by rewrite decide_True.
  - rewrite decide_False; [done|]. cbn [mvertices]. rewrite app_length. cbn. lia.
Qed.
Lemma addFace_box b v0 v1 v2 box b' : addFace b v0 v1 v2 = Ok b' -> exists box', addFace (Building (bmesh b) (bhash b) box) v0 v1 v2 = Ok (Building (bmesh b') (bhash b') box').
Proof.
  unfold addFace. rewrite find_box. destruct (findIndexOfVertex b v0) as [r0| |]; cbn [rbind]; try done. cbn [fst snd].
  rewrite find_box. destruct (findIndexOfVertex r0.2 v1) as [r1| |]; cbn [rbind]; try done. cbn [fst snd].
  rewrite find_box. destruct (findIndexOfVertex r1.2 v2) as [r2| |]; cbn [rbind]; try done. cbn [fst snd bmesh bhash bbox].
  destruct (_ || _ || _); intros [= <-]; eexists; reflexivity.
Qed.
Lemma add_faces_box : forall ts b box b', add_faces b ts = Ok b' -> exists box', add_faces (Building (bmesh b) (bhash b) box) ts = Ok (Building (bmesh b') (bhash b') box').
Proof.
  induction ts as [|t ts IH]; intros b box b' E; cbn [add_faces] in *.
  - injection E as <-. by eexists.
  - destruct (addFace b _ _ _) as [b1| |] eqn:E1; try done. cbn [rbind] in E. destruct (addFace_box _ _ _ _ box _ E1) as (box1 & ->). cbn [rbind]. by apply IH.
Qed.

(** * Loading *)
Lemma loaded_ok ts : exists b m, add_faces new_mesh ts = Ok b /\ finish (bmesh b) = Ok m /\ load_mesh ts = Ok m.
Proof.
  destruct (load_spec ts) as (b & m & E & Em & _). exists b, m. split; [done|]. split; [|done]. unfold load_mesh in Em. rewrite E in Em. exact Em.
Qed.
Lemma binary_load point f box : (Z.of_nat (length f) < 2 ^ 63) ->
  exists r, loadMeshSTL_binary point f (Building (Mesh [] []) (fun _ => []) box) = Ok r /\
  ((length f < 84)%nat -> r = None) /\
  ((84 <= length f)%nat -> exists b, r = Some b /\ load_mesh (binary_triangles point f) = Ok (bmesh b) /\
     (box = aabb3_empty -> exists b0, add_faces new_mesh (binary_triangles point f) = Ok b0 /\ bbox b = bbox b0)).
Proof.
  intros Hlen. unfold loadMeshSTL_binary. unfold fread at 1.
  destruct (Nat.leb_spec 80 (length f)) as [H80|H80]. 2: { exists None. split; [done|]. split; [done|]. lia. }
  cbv zeta. cbn [fst snd]. unfold fread at 1. rewrite drop_length.
  destruct (Nat.leb_spec 4 (length f - 80)) as [H4|H4]. 2: { exists None. split; [done|]. split; [done|]. lia. }
  cbn [fst snd]. rewrite drop_drop.
  assert (Hn : Z.to_nat (((Z.of_nat (length f) - 80 - 4) mod 2 ^ 64) ÷ 50) = ((length f - 84) / 50)%nat).
  { rewrite Z.mod_small by lia. replace (Z.of_nat (length f) - 80 - 4) with (Z.of_nat (length f - 84)) by lia.
    rewrite Z.quot_div_nonneg by lia. change 50 with (Z.of_nat 50) at 1. rewrite <- Nat2Z.inj_div. apply Nat2Z.id. }
  rewrite Hn. change (80 + 4)%nat with (84 + 50 * 0)%nat.
  rewrite read_faces_ok. 2: { pose proof (Nat.mul_div_le (length f - 84) 50). lia. }
  fold (binary_triangles point f). destruct (loaded_ok (binary_triangles point f)) as (b & m & Eb & Em & El).
  destruct (add_faces_box _ _ box _ Eb) as (box' & Eb'). cbn [new_mesh bmesh bhash] in Eb'. rewrite Eb'. cbn [rbind bmesh bhash bbox]. rewrite Em. cbn [rbind].
  eexists. split; [reflexivity|]. split; [lia|]. intros _. eexists. split; [reflexivity|]. cbn [bmesh bbox]. split; [done|].
  intros ->. change (Building (Mesh [] []) (fun _ => []) aabb3_empty) with new_mesh in Eb'. eexists. split; [exact Eb'|]. done.
Qed.

Lemma isspace_space c : isspace c = true <-> space c.
Proof.
  unfold isspace, space. rewrite orb_true_iff, andb_true_iff, !Z.leb_le, Z.eqb_eq. rewrite !elem_of_cons, elem_of_nil. lia.
Qed.
Lemma count_ok f : match count_whitespace f with
  | None => Forall space f
  | Some n => exists spaces c rest, f = spaces ++ c :: rest /\ length spaces = n /\ Forall space spaces /\ ~ space c end.
Proof.
  induction f as [|c f IH]; cbn [count_whitespace]; [constructor|]. pose proof (isspace_space c) as Hc. destruct (isspace c).
  - destruct (count_whitespace f) as [n|]; cbn [fmap option_fmap option_map].
    + destruct IH as (sp & d & rest & -> & <- & Hs & Hd). exists (c :: sp), d, rest. split; [done|]. split; [done|]. split; [|done]. constructor; [by apply Hc|done].
    + constructor; [by apply Hc|done].
  - exists [], c, f. split; [done|]. split; [done|]. split; [constructor|]. intros Hs. assert (false = true) by (by apply Hc). done.
Qed.
Lemma spaces_unique : forall sp c rest sp' c' rest', sp ++ c :: rest = sp' ++ c' :: rest' -> Forall space sp -> Forall space sp' -> ~ space c -> ~ space c' -> sp = sp'.
Proof.
  induction sp as [|x sp IH]; intros c rest [|x' sp'] c' rest' E Hs Hs' Hc Hc'; cbn in E; [done| | |].
  - injection E as -> _. by inversion Hs'.
  - injection E as -> _. by inversion Hs.
  - injection E as -> E. f_equal. inversion Hs. inversion Hs'. by eapply IH.
Qed.
Lemma letter_nocase c small : 97 <= small <= 122 -> (negb (c =? 0) && (tolower c =? small) = true <-> c = small \/ c = small - 32).
Proof.
  intros H. unfold tolower. rewrite andb_true_iff, negb_true_iff, Z.eqb_neq. destruct (Z.leb_spec 65 c), (Z.leb_spec c 90); cbn [andb]; rewrite Z.eqb_eq; lia.
Qed.
Lemma nocase_step x a y b : 97 <= y <= 122 -> same_nocase (x :: a) (y :: b) = negb (x =? 0) && (tolower x =? y) && same_nocase a b.
Proof.
  intros H. cbn [same_nocase]. assert ((y =? 0) = false) as -> by (apply Z.eqb_neq; lia). cbn [negb]. rewrite andb_true_r.
  assert (tolower y = y) as ->. { unfold tolower. destruct (Z.leb_spec 65 y), (Z.leb_spec y 90); cbn; lia. }
  destruct (Z.eqb_spec x 0) as [-> |]; cbn [negb andb]; [apply Z.eqb_neq; lia|]. by destruct (tolower x =? y).
Qed.
Lemma solid_ok w : length w = 5%nat -> same_nocase (w ++ [0]) solid = true <-> says_solid w.
Proof.
  intros Hl. destruct w as [|a [|b [|c [|d [|e [|]]]]]]; try done. unfold says_solid, solid. cbn [app]. rewrite !nocase_step by lia. 
  assert (same_nocase [0] [0] = true) as -> by done. rewrite andb_true_r, !andb_true_iff, <- !andb_true_iff. rewrite !Forall2_cons.
  rewrite <- !(letter_nocase _ _) by lia. rewrite !andb_true_iff. assert (Forall2 (fun c small : Z => c = small \/ c = small - 32) [] []) by constructor. tauto.
Qed.

(** C79.  Reading a file never goes wrong.  It fails if the file has fewer than five bytes after the white space at its start.  Otherwise, if these
    say solid and the text has a face, the mesh is that of the triangles of the text; in all other cases it is that of all triangles that fit in the
    file after the first 84 bytes, and reading fails if there are fewer bytes. *)
Theorem C79_stl vertex point f : Z.of_nat (length f) < 2 ^ 63 -> exists r text,
  loadMeshSTL vertex point f = Ok r /\ load_mesh (text_triangles vertex f) = Ok text /\
  ((forall word, ~ starts_with word f) -> r = None) /\
  forall word, starts_with word f ->
    (says_solid word -> mfaces text <> [] ->
       exists b, r = Some b /\ bmesh b = text /\ exists b0, add_faces new_mesh (text_triangles vertex f) = Ok b0 /\ bbox b = bbox b0) /\
    (~ says_solid word \/ mfaces text = [] ->
       ((length f < 84)%nat -> r = None) /\
       ((84 <= length f)%nat -> exists b, r = Some b /\ load_mesh (binary_triangles point f) = Ok (bmesh b) /\
          (~ says_solid word -> exists b0, add_faces new_mesh (binary_triangles point f) = Ok b0 /\ bbox b = bbox b0))).
Proof.
  intros Hlen. destruct (loaded_ok (text_triangles vertex f)) as (bt & text & Ebt & Efin & Etext). unfold loadMeshSTL. pose proof (count_ok f) as Hcount.
  destruct (count_whitespace f) as [n|].
  2: { exists None, text. split; [done|]. split; [done|]. split; [done|]. intros word (sp & rest & -> & _ & Hw & Hh). exfalso.
       destruct word as [|c word]; [done|]. apply (Hh c eq_refl). rewrite Forall_forall in Hcount. apply Hcount. rewrite elem_of_app, elem_of_app. right. left. left. }
  destruct Hcount as (sp & c & rest & -> & <- & Hsp & Hc). rewrite drop_app. unfold fread at 1.
  destruct (Nat.leb_spec 5 (length (c :: rest))) as [H5|H5].
  2: { exists None, text. split; [done|]. split; [done|]. split; [done|]. intros word (sp' & rest' & E & Hsp' & Hw & Hh). exfalso.
       destruct word as [|c' word]; [done|]. assert (sp = sp') as <- by (eapply spaces_unique; [exact E|done|done|done|by apply Hh]). apply app_inv_head in E. rewrite E in H5. cbn [length app] in *. rewrite app_length in H5. lia. }
  set (f := sp ++ c :: rest) in *. cbn [fst snd]. set (w := take 5 (c :: rest)) in *.
  assert (Hw5 : length w = 5%nat) by (unfold w; rewrite take_length; lia).
  assert (Huniq : forall word, starts_with word f -> word = w).
  { intros word (sp' & rest' & E & Hsp' & Hw & Hh). destruct word as [|c' word]; [done|].
    assert (sp = sp') as <- by (eapply spaces_unique; [exact E|done|done|done|by apply Hh]). unfold f in E. apply app_inv_head in E. unfold w. rewrite E. by rewrite take_app_alt. }
  assert (Hstart : starts_with w f).
  { exists sp, (drop 5 (c :: rest)). split; [unfold f, w; by rewrite take_drop|]. split; [done|]. split; [done|]. intros c' Hc'. unfold w in Hc'. cbn in Hc'. by injection Hc' as <-. }
  pose proof (solid_ok w Hw5) as Hsolid.
  destruct (same_nocase (w ++ [0]) solid) eqn:Es.
  - assert (Hs : says_solid w) by (by apply Hsolid). unfold loadMeshSTL_ascii. rewrite ascii_ok by lia. cbn [pending app]. fold (text_triangles vertex f). rewrite Ebt. cbn [rbind]. rewrite Efin. cbn [rbind bmesh].
    destruct (Nat.ltb_spec (length (mfaces text)) 1) as [H1|H1].
    + assert (Hnil : mfaces text = []) by (destruct (mfaces text); [done|cbn in H1; lia]).
      unfold clear. cbn [bbox]. destruct (binary_load point f (bbox bt) Hlen) as (r & Er & H2 & H3). exists r, text. split; [done|]. split; [done|]. split; [intros Hno; by destruct (Hno w)|].
      intros word Hword. rewrite (Huniq word Hword). split; [done|]. intros _. split; [done|]. intros H84. destruct (H3 H84) as (b & -> & Hb & _). exists b. split; [done|]. split; [done|]. done.
    + eexists _, text. split; [reflexivity|]. split; [done|]. split; [intros Hno; by destruct (Hno w)|]. intros word Hword. rewrite (Huniq word Hword). split.
      * intros _ _. eexists. split; [reflexivity|]. cbn [bmesh bbox]. split; [done|]. exists bt. done.
      * intros [?|Hnil]; [done|]. rewrite Hnil in H1. cbn in H1. lia.
  - assert (Hs : ~ says_solid w) by (intros Hs; apply Hsolid in Hs; done).
    destruct (binary_load point f aabb3_empty Hlen) as (r & Er & H2 & H3). exists r, text. split; [done|]. split; [done|]. split; [intros Hno; by destruct (Hno w)|].
    intros word Hword. rewrite (Huniq word Hword). split; [done|]. intros _. split; [done|]. intros H84. destruct (H3 H84) as (b & -> & Hb & Hbox). exists b. split; [done|]. split; [done|]. intros _. by apply Hbox.
Qed.

(** Files in which a vertex is a line of the letter v and three digits, in millimetres. *)
Definition digits_line (l : list Z) : option pt3 := match l with [118; x; y; z] => Some (Pt3 (1000 * (x - 48)) (1000 * (y - 48)) (1000 * (z - 48))) | _ => None end.
Definition first_bytes (l : list Z) : pt3 := match l with x :: y :: z :: _ => Pt3 (1000 * x) (1000 * y) (1000 * z) | _ => Pt3 0 0 0 end.
Definition header : list Z := [32; 115; 79; 108; 105; 100; 13; 10].
Definition vline (x y z : Z) : list Z := [118; 48 + x; 48 + y; 48 + z].
Definition facet_text (x : Z) : list Z := vline x 0 0 ++ [10] ++ vline (x + 1) 0 0 ++ [10] ++ vline x 1 0.
Definition faces_of (r : res (option building)) : option nat := match r with Ok (Some b) => Some (length (mfaces (bmesh b))) | _ => None end.
(** A last line that does not end is not read. *)
Theorem C79_last_line_refuted : faces_of (loadMeshSTL digits_line first_bytes (header ++ facet_text 0)) = None /\
  faces_of (loadMeshSTL digits_line first_bytes (header ++ facet_text 0 ++ [10])) = Some 1%nat.
Proof. by vm_compute. Qed.
(** Nothing is read after a line that is too long. *)
Theorem C79_long_line_refuted :
  faces_of (loadMeshSTL digits_line first_bytes (header ++ facet_text 0 ++ [10] ++ replicate 1024 32 ++ [10] ++ facet_text 3 ++ [10])) = Some 1%nat /\
  faces_of (loadMeshSTL digits_line first_bytes (header ++ facet_text 0 ++ [10] ++ replicate 1023 32 ++ [10] ++ facet_text 3 ++ [10])) = Some 2%nat.
Proof. by vm_compute. Qed.
(** A text in which all triangles are too thin to be kept is read as if it were a binary file; the box stays that of the text. *)
Theorem C79_thin_text_refuted : exists vertex point f b,
  text_triangles vertex f <> [] /\ loadMeshSTL vertex point f = Ok (Some b) /\ length (mfaces (bmesh b)) = 1%nat /\
  ~ bounds (mv_p <$> mvertices (bmesh b)) (bbox b).
Proof.
  set (f := header ++ vline 0 0 0 ++ [10] ++ vline 0 0 0 ++ [10] ++ vline 0 0 0 ++ [10] ++ replicate 73 32 ++ [32; 33; 34] ++ replicate 9 32 ++ [35; 33; 34] ++ replicate 9 32 ++ [35; 39; 34] ++ replicate 30 32).
  destruct (loadMeshSTL digits_line first_bytes f) as [[b|]| |] eqn:E; [|by vm_compute in E..].
  exists digits_line, first_bytes, f, b. split; [by vm_compute|]. split; [exact E|].
  assert (Eb : length (mfaces (bmesh b)) = 1%nat /\ mv_p <$> mvertices (bmesh b) = [Pt3 32000 33000 34000; Pt3 35000 33000 34000; Pt3 35000 39000 34000] /\ px (b3min (bbox b)) = 0).
  { vm_compute in E. injection E as <-. by vm_compute. }
  destruct Eb as (E1 & E2 & E3). split; [done|]. rewrite E2. intros (_ & (p & Hp & Ex) & _). rewrite E3 in Ex.
  rewrite !elem_of_cons, elem_of_nil in Hp. destruct Hp as [-> |[-> |[-> |?]]]; done.
Qed.

(** A text file with two facets and a vertex left over, and a binary file with two facets and some bytes left over; the number it reports, 200, does not matter. *)
Definition binary_facet (x : Z) : list Z := replicate 12 0 ++ [x; 0; 0] ++ replicate 9 0 ++ [x + 1; 0; 0] ++ replicate 9 0 ++ [x; 1; 0] ++ replicate 11 0.
Definition binary_file : list Z := replicate 80 7 ++ [200; 0; 0; 0] ++ binary_facet 0 ++ binary_facet 5 ++ replicate 21 9.
Example C79_nonvacuous :
  starts_with [115; 79; 108; 105; 100] (header ++ facet_text 0) /\ says_solid [115; 79; 108; 105; 100] /\
  text_triangles digits_line (header ++ facet_text 0 ++ [13; 10] ++ facet_text 4 ++ [10] ++ vline 9 9 9 ++ [10]) =
    [(Pt3 0 0 0, Pt3 1000 0 0, Pt3 0 1000 0); (Pt3 4000 0 0, Pt3 5000 0 0, Pt3 4000 1000 0)] /\
  faces_of (loadMeshSTL digits_line first_bytes (header ++ facet_text 0 ++ [13; 10] ++ facet_text 4 ++ [10] ++ vline 9 9 9 ++ [10])) = Some 2%nat /\
  binary_triangles first_bytes binary_file = [(Pt3 0 0 0, Pt3 1000 0 0, Pt3 0 1000 0); (Pt3 5000 0 0, Pt3 6000 0 0, Pt3 5000 1000 0)] /\
  faces_of (loadMeshSTL digits_line first_bytes binary_file) = Some 2%nat.
Proof.
  split; [|split; [|by vm_compute]].
  - exists [32], ([13; 10] ++ facet_text 0). split; [done|]. split; [repeat constructor|]. split; [done|]. intros c [= <-]. unfold space. rewrite !elem_of_cons, elem_of_nil. lia.
  - repeat constructor; lia.
Qed.
Print Assumptions C79_stl.
Print Assumptions C79_last_line_refuted.
Print Assumptions C79_long_line_refuted.
Print Assumptions C79_thin_text_refuted.
