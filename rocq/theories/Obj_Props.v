(** Proofs of C80: reading OBJ files. *)
From Coq Require Import ZArith Lia.
From stdpp Require Import prelude list.
From Verif Require Import Common Slicer_Model Box_Model Mesh_Model Mesh_Spec Mesh_Proofs Mesh_Props Obj_Model Obj_Spec.
Open Scope Z_scope.

(** * The corners of a face *)
Lemma isdigit_ok c : isdigit c = true <-> 48 <= c <= 57.
Proof. unfold isdigit. rewrite andb_true_iff, !Z.leb_le. lia. Qed.
(** what follows a corner: nothing or a blank *)
Definition follows (r : list Z) : Prop := r = [] \/ exists b r', r = b :: r' /\ blank b.
Lemma span_ok d r : digits d -> (forall c, head r = Some c -> isdigit c = false) -> span_digits (d ++ r) = (d, r).
Proof.
  induction d as [|c d IH]; intros Hd Hr; cbn [app].
  - destruct r as [|c r]; [done|]. cbn [span_digits]. by rewrite (Hr c).
  - inversion Hd as [|? ? Hc Hd']; subst. cbn [span_digits]. assert (isdigit c = true) as -> by (by apply isdigit_ok). by rewrite IH.
Qed.
Lemma follows_head r c : follows r -> head r = Some c -> isdigit c = false /\ (c =? 47) = false.
Proof.
  intros [-> |(b & r' & -> & Hb)] E; [done|]. cbn in E. injection E as ->. assert (c = 32 \/ c = 9) by exact Hb. unfold isdigit. split; [|apply Z.eqb_neq; lia].
  destruct (Z.leb_spec 48 c); [lia|done].
Qed.
Lemma slash_none r : follows r -> slash_digits r = ([], r).
Proof. intros Hr. destruct r as [|c r]; [done|]. cbn [slash_digits]. by destruct (follows_head (c :: r) c Hr eq_refl) as [_ ->]. Qed.
Lemma slash_some d r : digits d -> (forall c, head r = Some c -> isdigit c = false) -> slash_digits (47 :: d ++ r) = (d, r).
Proof. intros. cbn [slash_digits]. rewrite Z.eqb_refl. by apply span_ok. Qed.
Definition lowered (v : Z) : Z := (v - 1) mod 2 ^ 64.
Lemma stoul_ok d : foldl (fun v c => 10 * v + (c - 48)) 0 d < 2 ^ 64 -> stoul d = Ok (foldl (fun v c => 10 * v + (c - 48)) 0 d).
Proof. intros H. unfold stoul. cbv zeta. by rewrite (proj2 (Z.ltb_lt _ _) H). Qed.
Lemma scan_corner w v r fuel : corner w v -> v < 2 ^ 64 -> follows r ->
  face_indices (S fuel) (w ++ r) = (let! rest := face_indices fuel r in Ok (lowered v :: rest)).
Proof.
  intros Hw Hv Hr.
  assert (Hnum : forall d x, decimal d v -> (forall c, head x = Some c -> isdigit c = false) -> face_indices (S fuel) (d ++ x) =
    (let uv := slash_digits x in let normal := slash_digits uv.2 in
     let! _ := (match uv.1 with [] => Ok 0 | _ => stoul uv.1 end) in let! rest := face_indices fuel normal.2 in Ok (lowered v :: rest))).
  { intros d x (Hne & Hd & Ev) Hx. destruct d as [|c d]; [done|]. cbn [app face_indices].
    assert (isdigit c = true) as -> by (inversion Hd; by apply isdigit_ok). change (c :: d ++ x) with ((c :: d) ++ x). rewrite span_ok by done. cbv zeta. cbn [fst snd].
    rewrite stoul_ok by (by rewrite <- Ev). rewrite <- Ev. done. }
  assert (Hs : forall (y : list Z) c, head (47 :: y) = Some c -> isdigit c = false) by (intros y c [= <-]; done).
  assert (Hf : forall c, head r = Some c -> isdigit c = false) by (intros c Hc; by destruct (follows_head r c Hr Hc)).
  destruct Hw as [d v Hd|d v t Hd Ht Htv|d v t n Hd Ht Htv Hn].
  - rewrite Hnum by done. cbv zeta. rewrite slash_none by done. cbn [fst snd rbind]. by rewrite slash_none by done.
  - rewrite <- app_assoc. cbn [app]. rewrite Hnum by (done || apply Hs). cbv zeta. rewrite slash_some by done. cbn [fst snd]. rewrite slash_none by done. cbn [snd].
    rewrite stoul_ok by done. by destruct t.
  - rewrite <- app_assoc. cbn [app]. rewrite <- app_assoc. cbn [app]. rewrite Hnum by (done || apply Hs). cbv zeta. rewrite slash_some by (done || apply Hs). cbn [fst snd]. rewrite slash_some by done. cbn [snd].
    rewrite stoul_ok by done. by destruct t.
Qed.
Lemma scan_blanks blanks : forall fuel s, Forall blank blanks -> face_indices (length blanks + fuel) (blanks ++ s) = face_indices fuel s.
Proof.
  induction blanks as [|b blanks IH]; intros fuel s Hb; [done|]. inversion Hb as [|? ? H1 H2]; subst. cbn [length app Nat.add face_indices].
  assert (isdigit b = false) as -> by (destruct H1 as [-> | ->]; done). by apply IH.
Qed.
Lemma scan_fuel : forall k s fuel, (length s < k)%nat -> (k <= fuel)%nat -> face_indices fuel s = face_indices k s.
Proof.
  assert (Hspan : forall s, (length (span_digits s).2 <= length s)%nat). { induction s as [|c s IH]; cbn [span_digits]; [done|]. destruct (isdigit c); cbn [snd length]; lia. }
  assert (Hslash : forall s, (length (slash_digits s).2 <= length s)%nat). { intros [|c s]; cbn [slash_digits]; [done|]. destruct (c =? 47); [|done]. pose proof (Hspan s). cbn [length]. lia. }
  induction k as [|k IH]; intros s fuel Hs Hk; [lia|]. destruct fuel as [|fuel]; [lia|]. cbn [face_indices]. destruct s as [|c s]; [done|]. cbn [length] in Hs. destruct (isdigit c) eqn:Ec.
  - cbv zeta. rewrite (IH _ fuel); [done| |lia]. cbn [span_digits]. rewrite Ec. cbn [snd]. pose proof (Hspan s). pose proof (Hslash (span_digits s).2). pose proof (Hslash (slash_digits (span_digits s).2).2). lia.
  - apply IH; lia.
Qed.
(** The numbers in a face line are found, whatever is said about textures and normals. *)
Theorem C80_corners s vs : corners s vs -> Forall (fun v => v < 2 ^ 64) vs -> face_indices (S (length s)) s = Ok (lowered <$> vs).
Proof.
  intros H. induction H as [bl Hb|bl w v Hb Hw|bl w v b rest vs Hb Hw Hbl H IH]; intros Hv.
  - replace (S (length bl)) with (length bl + 1)%nat by lia. rewrite <- (app_nil_r bl) at 2. by rewrite scan_blanks.
  - rewrite app_length. replace (S (length bl + length w)) with (length bl + S (length w))%nat by lia. rewrite scan_blanks by done. inversion Hv; subst.
    rewrite <- (app_nil_r w) at 2. rewrite (scan_corner w v [] (length w)); [|done|done|by left].
    assert (exists k, length w = S k) as [k ->]; [|done]. destruct Hw as [d v' (Hne & _)|d v' t (Hne & _)|d v' t n (Hne & _)]; destruct d; try done; by eexists.
  - inversion Hv as [|? ? Hv1 Hv2]; subst. specialize (IH Hv2). rewrite !app_length. replace (S (length bl + (length w + length (b :: rest)))) with (length bl + S (length w + length (b :: rest)))%nat by lia.
    rewrite scan_blanks by done. rewrite (scan_corner w v (b :: rest) (length w + length (b :: rest))); [|done|done|right; by eexists _, _].
    assert (Hk : exists k, length w = S k) by (destruct Hw as [d v' (Hne & _)|d v' t (Hne & _)|d v' t n (Hne & _)]; destruct d; try done; by eexists).
    destruct Hk as [k Hk]. rewrite (scan_fuel (S (length (b :: rest)))) by lia. rewrite IH. done.
Qed.

(** * Triangles *)
Lemma add_faces_app : forall ts ts' b, add_faces b (ts ++ ts') = (let! b' := add_faces b ts in add_faces b' ts').
Proof. induction ts as [|t ts IH]; intros ts' b; [done|]. cbn [app add_faces]. destruct (addFace b _ _ _); cbn [rbind]; [apply IH|done|done]. Qed.
Lemma lowered_ok (ps : list pt3) v : 0 <= v < 2 ^ 64 -> Z.of_nat (length ps) < 2 ^ 64 - 1 ->
  match nth_vertex ps v with
  | Some p => (lowered v <? Z.of_nat (length ps)) = true /\ ps !! Z.to_nat (lowered v) = Some p
  | None => (lowered v <? Z.of_nat (length ps)) = false
  end.
Proof.
  intros Hv Hl. unfold nth_vertex, lowered. case_bool_decide as H1.
  - rewrite Z.mod_small by lia. destruct (ps !! Z.to_nat (v - 1)) as [p|] eqn:E.
    + split; [|done]. apply lookup_lt_Some in E. apply Z.ltb_lt. lia.
    + apply lookup_ge_None_1 in E. apply Z.ltb_ge. lia.
  - assert (v = 0) as -> by lia. assert ((0 - 1) mod 2 ^ 64 = 2 ^ 64 - 1) as -> by done. apply Z.ltb_ge. lia.
Qed.
Lemma add_fan_cons ps i0 i1 i2 rest b : add_fan ps i0 (i1 :: i2 :: rest) b =
  (let n := Z.of_nat (length ps) in
   let! b' := (if (i0 <? n) && (i1 <? n) && (i2 <? n) then
                 let! v0 := of_opt (ps !! Z.to_nat i0) in
                 let! v1 := of_opt (ps !! Z.to_nat i1) in
                 let! v2 := of_opt (ps !! Z.to_nat i2) in
                 addFace b v0 v1 v2
               else Ok b) in
   add_fan ps i0 (i2 :: rest) b').
Proof. reflexivity. Qed.
Lemma fan_cons ps first v w rest : fan ps first (v :: w :: rest) =
  match nth_vertex ps first, nth_vertex ps v, nth_vertex ps w with Some a, Some b, Some c => [(a, b, c)] | _, _, _ => [] end ++ fan ps first (w :: rest).
Proof. reflexivity. Qed.
Lemma fan_ok ps v0 : forall vs b, 0 <= v0 < 2 ^ 64 -> Forall (fun v => 0 <= v < 2 ^ 64) vs -> Z.of_nat (length ps) < 2 ^ 64 - 1 ->
  add_fan ps (lowered v0) (lowered <$> vs) b = add_faces b (fan ps v0 vs).
Proof.
  induction vs as [|v vs IH]; intros b H0 Hvs Hl; [done|]. destruct vs as [|w vs]; [done|].
  change (lowered <$> v :: w :: vs) with (lowered v :: lowered w :: (lowered <$> vs)). inversion Hvs as [|? ? Hv Hvs']; subst. inversion Hvs' as [|? ? Hw _]; subst.
  specialize (fun b => IH b H0 Hvs' Hl). change (lowered <$> w :: vs) with (lowered w :: (lowered <$> vs)) in IH.
  rewrite add_fan_cons, fan_cons. cbv zeta. rewrite add_faces_app.
  pose proof (lowered_ok ps v0 H0 Hl) as A. pose proof (lowered_ok ps v Hv Hl) as B. pose proof (lowered_ok ps w Hw Hl) as C.
  destruct (nth_vertex ps v0) as [p0|]; [destruct A as [-> ->]|rewrite A; cbn [andb rbind add_faces]; apply IH].
  destruct (nth_vertex ps v) as [p1|]; [destruct B as [-> ->]|rewrite B; cbn [andb rbind add_faces]; apply IH].
  destruct (nth_vertex ps w) as [p2|]; [destruct C as [-> ->]|rewrite C; cbn [andb rbind add_faces]; apply IH].
  cbn [andb of_opt rbind add_faces fst snd]. destruct (addFace b p0 p1 p2) as [b'| |]; cbn [rbind]; [apply IH|done|done].
Qed.

Section obj.
  Context (recognise : list Z -> recognised).
  (** What a line says, given which lines are vertices and faces *)
  Definition says (line : list Z) (s : statement) : Prop :=
    match s with
    | Vertex p => recognise line = VertexLine p
    | Face numbers => exists payload, recognise line = FaceLine payload /\ corners payload numbers /\ Forall (fun v => v < 2 ^ 64) numbers
    | Nothing => recognise line = OtherLine
    end.
  Lemma corner_nonneg w v : corner w v -> 0 <= v.
  Proof.
    assert (H : forall d, digits d -> forall a, 0 <= a -> 0 <= foldl (fun v c => 10 * v + (c - 48)) a d).
    { induction d as [|c d IH]; intros Hd a Ha; [done|]. inversion Hd; subst. cbn [foldl]. apply IH; [done|lia]. }
    intros [d u (_ & Hd & ->)|d u t (_ & Hd & ->)|d u t n (_ & Hd & ->)]; by apply H.
  Qed.
  Lemma corners_nonneg s vs : corners s vs -> Forall (fun v => 0 <= v) vs.
  Proof. induction 1; repeat constructor; try done; by eapply corner_nonneg. Qed.
  Lemma lines_ok : forall lines ss ps b, Forall2 says lines ss -> Z.of_nat (length ps + length lines) < 2 ^ 64 - 1 ->
    (let! s := read_lines recognise (ps, b) lines in Ok s.2) = add_faces b (obj_triangles ps ss).
  Proof.
    induction lines as [|l lines IH]; intros ss ps b H Hl; inversion H as [|? s ? ss' Hs Hss]; subst; [done|]. cbn [length] in Hl. cbn [read_lines]. unfold read_line. destruct s as [p|vs|]; cbn [says] in Hs.
    - rewrite Hs. cbn [rbind fst snd obj_triangles]. apply IH; [done|]. rewrite app_length. cbn. lia.
    - destruct Hs as (payload & -> & Hc & Hv). rewrite (C80_corners payload vs Hc Hv). pose proof (corners_nonneg _ _ Hc) as Hn.
      assert (Hboth : Forall (fun v => 0 <= v < 2 ^ 64) vs) by (apply Forall_and; split; [done|exact Hv]).
      cbn [rbind]. destruct vs as [|v vs]; cbn [fmap list_fmap obj_triangles].
      + cbn [rbind fst snd]. apply IH; [done|lia].
      + inversion Hboth as [|? ? H0 H1]; subst. assert (E : (if (3 <=? length (lowered v :: (lowered <$> vs)))%nat then add_fan ps (lowered v) (lowered <$> vs) b else Ok b) = add_faces b (fan ps v vs)).
        { destruct (Nat.leb_spec 3 (length (lowered v :: (lowered <$> vs)))) as [|Hs]; [apply fan_ok; [done|done|lia]|]. cbn [length] in Hs. rewrite fmap_length in Hs. destruct vs as [|w [|w' vs]]; [done|done|cbn in Hs; lia]. }
        change (list_fmap Z Z lowered vs) with (lowered <$> vs). cbn [fst snd]. rewrite E. rewrite add_faces_app. destruct (add_faces b (fan ps v vs)) as [b'| |]; cbn [rbind]; [|done|done]. apply IH; [done|lia].
    - rewrite Hs. cbn [rbind obj_triangles]. apply IH; [done|lia].
  Qed.
  Lemma getlines_ok : forall lines final cur, Forall (fun l => 10 ∉ l) lines -> 10 ∉ final -> cur = [] ->
    getlines cur (concat (map (fun l => l ++ [10]) lines) ++ final) = lines ++ match final with [] => [] | _ => [final] end.
  Proof.
    assert (Hone : forall l cur r, 10 ∉ l -> getlines cur (l ++ 10 :: r) = (cur ++ l) :: getlines [] r).
    { induction l as [|c l IH]; intros cur r Hl; cbn [app getlines]; [by rewrite app_nil_r|]. rewrite not_elem_of_cons in Hl. destruct Hl as [Hc Hl].
      assert ((c =? 10) = false) as -> by (apply Z.eqb_neq; lia). rewrite IH by done. by rewrite <- app_assoc. }
    assert (Hfin : forall l cur, 10 ∉ l -> getlines cur l = match cur ++ l with [] => [] | _ => [cur ++ l] end).
    { induction l as [|c l IH]; intros cur Hl; cbn [getlines]; [by rewrite app_nil_r|]. rewrite not_elem_of_cons in Hl. destruct Hl as [Hc Hl].
      assert ((c =? 10) = false) as -> by (apply Z.eqb_neq; lia). rewrite IH by done. by rewrite <- app_assoc. }
    induction lines as [|l lines IH]; intros final cur Hl Hf ->; cbn [map concat app].
    - by rewrite Hfin.
    - inversion Hl; subst. rewrite <- !app_assoc. cbn [app]. rewrite Hone by done. cbn [app]. f_equal. by apply IH.
  Qed.

  (** C80.  The mesh read from a file is that of the triangles it describes, and reading it succeeds exactly if there is a face. *)
  Theorem C80_obj lines final ss : Forall (fun l => 10 ∉ l) lines -> 10 ∉ final ->
    Forall2 says (lines ++ match final with [] => [] | _ => [final] end) ss -> Z.of_nat (length lines) < 2 ^ 63 ->
    exists m, load_mesh (obj_triangles [] ss) = Ok m /\
      loadMeshOBJ recognise (concat (map (fun l => l ++ [10]) lines) ++ final) = Ok (m, bool_decide (mfaces m <> [])).
  Proof.
    intros Hl Hf Hs Hn. unfold loadMeshOBJ. rewrite getlines_ok by done.
    set (ls := lines ++ _) in *. assert (Hls : (length ls <= length lines + 1)%nat) by (unfold ls; rewrite app_length; destruct final; cbn; lia).
    pose proof (lines_ok ls ss [] new_mesh Hs) as E. cbn [length Nat.add] in E. specialize (E ltac:(lia)).
    destruct (load_spec (obj_triangles [] ss)) as (b & m & Eb & Em & _). exists m. split; [done|].
    rewrite Eb in E. destruct (read_lines recognise ([], new_mesh) ls) as [s| |]; try done. cbn [rbind] in *. injection E as ->.
    unfold load_mesh in Em. rewrite Eb in Em. cbn [rbind] in Em. rewrite Em. cbn [rbind]. f_equal. f_equal. by rewrite bool_decide_not.
  Qed.
End obj.

(** Lines of a letter, a blank, and for a vertex three digits in millimetres *)
Definition simple_line (l : list Z) : recognised :=
  match l with
  | [118; 32; x; y; z] => VertexLine (Pt3 (1000 * (x - 48)) (1000 * (y - 48)) (1000 * (z - 48)))
  | 102 :: 32 :: payload => FaceLine payload
  | _ => OtherLine
  end.
Definition unit_square : list Z := [118; 32; 48; 48; 48; 10; 118; 32; 49; 48; 48; 10; 118; 32; 49; 49; 48; 10; 118; 32; 48; 49; 48; 10].
(** Numbers counted from the last vertex, as the format allows, are read as if they were counted from the first: f -3 -2 -1 *)
Theorem C80_relative_refuted : exists m f, loadMeshOBJ simple_line (unit_square ++ [102; 32; 45; 51; 32; 45; 50; 32; 45; 49]) = Ok (m, true) /\
  mfaces m = [f] /\ located m (vi0 f) (Pt3 1000 1000 0) /\ located m (vi1 f) (Pt3 1000 0 0) /\ located m (vi2 f) (Pt3 0 0 0).
Proof.
  destruct (loadMeshOBJ simple_line (unit_square ++ [102; 32; 45; 51; 32; 45; 50; 32; 45; 49])) as [[m r]| |] eqn:E; [|by vm_compute in E..].
  vm_compute in E. injection E as <- <-. do 2 eexists. split; [reflexivity|]. split; [reflexivity|]. split; [|split]; eexists; split; reflexivity.
Qed.

(** The square as one face: f 1/2/3 2/ 3//7 4, where the file ends; a face with number 0 or 5 adds nothing, and one of five corners two triangles. *)
Example C80_nonvacuous :
  let lines := [[118; 32; 48; 48; 48]; [118; 32; 49; 48; 48]; [118; 32; 49; 49; 48]; [118; 32; 48; 49; 48]; [102; 32; 48; 32; 49; 32; 50]; [102; 32; 49; 32; 50; 32; 51; 32; 53; 32; 52]] in
  let final := [102; 32; 49; 47; 50; 47; 51; 32; 50; 47; 9; 51; 47; 47; 55; 32; 52] in
  let ss := [Vertex (Pt3 0 0 0); Vertex (Pt3 1000 0 0); Vertex (Pt3 1000 1000 0); Vertex (Pt3 0 1000 0); Face [0; 1; 2]; Face [1; 2; 3; 5; 4]; Face [1; 2; 3; 4]] in
  Forall2 (says simple_line) (lines ++ [final]) ss /\
  obj_triangles [] ss = [(Pt3 0 0 0, Pt3 1000 0 0, Pt3 1000 1000 0); (Pt3 0 0 0, Pt3 1000 0 0, Pt3 1000 1000 0); (Pt3 0 0 0, Pt3 1000 1000 0, Pt3 0 1000 0)] /\
  exists m, loadMeshOBJ simple_line (concat (map (fun l => l ++ [10]) lines) ++ final) = Ok (m, true) /\ length (mfaces m) = 3%nat.
Proof.
  assert (Hd : forall c, 48 <= c <= 57 -> decimal [c] (c - 48)) by (intros c Hc; split; [done|]; split; [constructor; [done|constructor]|cbn; lia]).
  assert (Hb : blank 32) by (by left). assert (Hb9 : blank 9) by (by right).
  assert (Hmore : forall c b rest vs v, 48 <= c <= 57 -> v = c - 48 -> blank b -> corners (b :: rest) vs -> corners (32 :: c :: b :: rest) (v :: vs)).
  { intros c b rest vs v Hc -> Hbb H. apply (corners_more [32] [c]); [by repeat constructor|constructor; by apply Hd|done|done]. }
  assert (Hfirst : forall c b rest vs v, 48 <= c <= 57 -> v = c - 48 -> blank b -> corners (b :: rest) vs -> corners (c :: b :: rest) (v :: vs)).
  { intros c b rest vs v Hc -> Hbb H. apply (corners_more [] [c]); [by repeat constructor|constructor; by apply Hd|done|done]. }
  assert (Hlast : forall c v, 48 <= c <= 57 -> v = c - 48 -> corners [32; c] [v]).
  { intros c v Hc ->. apply (corners_last [32] [c]); [by repeat constructor|constructor; by apply Hd]. }
  cbv zeta. split; [|split].
  - do 4 (constructor; [reflexivity|]). constructor; [|constructor; [|constructor; [|constructor]]].
    + eexists. split; [reflexivity|]. split; [|by repeat constructor]. apply Hfirst; [lia|done|done|]. apply Hmore; [lia|done|done|]. by apply Hlast.
    + eexists. split; [reflexivity|]. split; [|by repeat constructor]. apply Hfirst; [lia|done|done|]. do 3 (apply Hmore; [lia|done|done|]). by apply Hlast.
    + eexists. split; [reflexivity|]. split; [|by repeat constructor].
      apply (corners_more [] [49; 47; 50; 47; 51] 1 32); [constructor| |done|]. { apply (corner_normal [49] 1 [50] [51]); [by apply (Hd 49)|by repeat constructor|done|by repeat constructor]. }
      apply (corners_more [32] [50; 47] 2 9); [by repeat constructor| |done|]. { apply (corner_texture [50] 2 []); [by apply (Hd 50)|constructor|done]. }
      apply (corners_more [9] [51; 47; 47; 55] 3 32); [by repeat constructor| |done|]. { apply (corner_normal [51] 3 [] [55]); [by apply (Hd 51)|constructor|done|by repeat constructor]. }
      by apply Hlast.
  - by vm_compute.
  - eexists. split; [vm_compute; reflexivity|]. done.
Qed.
Print Assumptions C80_corners.
Print Assumptions C80_obj.
Print Assumptions C80_relative_refuted.
