(** C05 (a triangle gives one segment), C07 (closed meshes give closed contours), C08 (joining
    segments conserves them). *)
From Coq Require Import ZArith QArith Lia.
From stdpp Require Import list.
From Verif Require Import Common Math_Model Math_Spec Math_Proofs Geo_Model Layers_Model Slicer_Model Slicer_Spec Slicer_Proofs SlicerMesh_Proofs.
Open Scope Z_scope.

(** C05.  No segment exactly if all corners are above, none is, or two are above while the third
    lies exactly at the slicing height.  Otherwise one segment; it starts on the edge where the
    face's boundary goes from above to not-above and ends on the edge where it comes back up. *)
Theorem C05_triangle_segment : forall tol z p0 p1 p2,
  let t := (p0, p1, p2) in
  exists r, slice_triangle tol z p0 p1 p2 = Ok r /\
  (r = None <->
     (forall i, (i < 3)%nat -> is_above tol z (corner t i)) \/
     (forall i, (i < 3)%nat -> ~ is_above tol z (corner t i)) \/
     (exists k, (k < 3)%nat /\ height tol z (corner t k) = z /\
        forall i, (i < 3)%nat -> i <> k -> is_above tol z (corner t i))) /\
  (forall s e edge ev, r = Some (s, e, edge, ev) ->
     exists i, (i < 3)%nat /\ (edge < 3)%nat /\ i <> edge /\
       is_above tol z (corner t i) /\ ~ is_above tol z (corner t (S i)) /\
       ~ is_above tol z (corner t edge) /\ is_above tol z (corner t (S edge)) /\
       meets_edge tol z (corner t i) (corner t (S i)) s /\
       meets_edge tol z (corner t edge) (corner t (S edge)) e /\
       ev = (if height tol z (corner t edge) =? z then Some edge else None)).
Proof.
  intros tol z p0 p1 p2 t. destruct (slice_triangle_spec tol z p0 p1 p2) as (r & Er & Hr). fold t in Hr.
  exists r. split; [done|]. unfold is_above. destruct r as [[[[s e] edge] ev]|].
  - destruct Hr as (i & Hi & He & Hne & A & B & C & D & E & F & G & H). split.
    + split; [done|]. intros Hcase. exfalso.
      destruct Hcase as [Hall|[Hall|(k & Hk & Hz & Hall)]].
      * assert (z < height tol z (corner t (S i))); [|lia].
        destruct i as [|[|[|i]]]; [apply (Hall 1%nat)|apply (Hall 2%nat)|apply (Hall 0%nat)|]; lia.
      * specialize (Hall i Hi). lia.
      * (* the not-above corners S i and edge are both k *)
        assert (Hk1 : edge = k).
        { destruct (decide (edge = k)); [done|]. specialize (Hall edge He ltac:(done)). lia. }
        subst k. apply H. clear Er.
        pose proof (Hall 0%nat) as A0; pose proof (Hall 1%nat) as A1; pose proof (Hall 2%nat) as A2.
        destruct i as [|[|[|i]]]; [..|lia]; destruct edge as [|[|[|edge]]]; try lia; simpl in *; lia.
    + intros s' e' edge' ev' [= <- <- <- <-]. exists i.
      do 3 (split; [done|]). do 4 (split; [lia|]).
      split; [by apply edge_point_either_meets|]. split; [by apply edge_point_either_meets|done].
  - split; [|done]. split; [|done]. intros _. subst t. simpl in Hr.
    assert (forall P : nat -> Prop, P 0%nat -> P 1%nat -> P 2%nat -> forall i, (i < 3)%nat -> P i) as H3.
    { intros P ? ? ? i Hi. destruct i as [|[|[|i]]]; [done..|lia]. }
    destruct Hr as [Hr|[Hr|[Hr|[Hr|Hr]]]].
    + left. apply (H3 (fun i => z < height tol z (corner (p0, p1, p2) i))); simpl; lia.
    + right; left. apply (H3 (fun i => ~ z < height tol z (corner (p0, p1, p2) i))); simpl; lia.
    + right; right. exists 0%nat. split; [lia|]. split; [apply Hr|].
      apply (H3 (fun i => i <> 0%nat -> z < height tol z (corner (p0, p1, p2) i))); simpl; lia.
    + right; right. exists 1%nat. split; [lia|]. split; [apply Hr|].
      apply (H3 (fun i => i <> 1%nat -> z < height tol z (corner (p0, p1, p2) i))); simpl; lia.
    + right; right. exists 2%nat. split; [lia|]. split; [apply Hr|].
      apply (H3 (fun i => i <> 2%nat -> z < height tol z (corner (p0, p1, p2) i))); simpl; lia.
Qed.

Example C05_nonvacuous :
  slice_triangle MIDDLE 50 (Pt3 0 0 0) (Pt3 100 0 0) (Pt3 0 100 100) = Ok (Some ((0, 51), (49, 51), 1%nat, None)) /\
  slice_triangle MIDDLE 0 (Pt3 0 0 0) (Pt3 100 0 0) (Pt3 0 100 100) = Ok (Some ((0, 2), (98, 2), 1%nat, None)) /\
  slice_triangle MIDDLE 100 (Pt3 0 0 0) (Pt3 100 0 0) (Pt3 0 100 100) = Ok None.
Proof. vm_compute. auto. Qed.

(** C05, direction.  The exact points where the two edges meet the plane differ by a positive
    multiple of the face's normal turned a quarter counter-clockwise (seen from above): with
    corners counter-clockwise as seen from outside, the material lies to the left of the segment. *)
Definition exact_cross (z : Z) (ha hb : Z) (a b : pt3) : Q * Q :=
  let k := (inject_Z (z - ha) / inject_Z (hb - ha))%Q in
  ((inject_Z (px a) + k * inject_Z (px b - px a))%Q, (inject_Z (py a) + k * inject_Z (py b - py a))%Q).
(** x and y of the normal (p1 - p0) x (p2 - p0), with z given by [h] *)
Definition normal_x (h : pt3 -> Z) (t : pt3 * pt3 * pt3) : Z :=
  let '(p0, p1, p2) := t in (py p1 - py p0) * (h p2 - h p0) - (h p1 - h p0) * (py p2 - py p0).
Definition normal_y (h : pt3 -> Z) (t : pt3 * pt3 * pt3) : Z :=
  let '(p0, p1, p2) := t in (h p1 - h p0) * (px p2 - px p0) - (px p1 - px p0) * (h p2 - h p0).

Lemma Qopp_mult_distr_l_q (a b : Q) : (- (a * b) == (- a) * b)%Q.
Proof. ring. Qed.
Lemma inject_nz a : a <> 0 -> ~ (inject_Z a == 0)%Q.
Proof. intros H E. apply H. apply inject_Z_injective. exact E. Qed.
Lemma inject_pos_q a : 0 < a -> (0 < inject_Z a)%Q.
Proof. intros H. change 0%Q with (inject_Z 0). by rewrite <- Zlt_Qlt. Qed.

Theorem C05_material_on_the_left : forall tol z p0 p1 p2 i edge,
  let t := (p0, p1, p2) in let h := height tol z in
  (i < 3)%nat -> (edge < 3)%nat ->
  is_above tol z (corner t i) -> ~ is_above tol z (corner t (S i)) ->
  ~ is_above tol z (corner t edge) -> is_above tol z (corner t (S edge)) ->
  (* a segment is emitted *)
  slice_triangle tol z p0 p1 p2 <> Ok None ->
  let S_ := exact_cross z (h (corner t i)) (h (corner t (S i))) (corner t i) (corner t (S i)) in
  let E_ := exact_cross z (h (corner t edge)) (h (corner t (S edge))) (corner t edge) (corner t (S edge)) in
  exists k : Q, (0 < k)%Q /\ (E_.1 - S_.1 == - k * inject_Z (normal_y h t))%Q /\
                (E_.2 - S_.2 == k * inject_Z (normal_x h t))%Q.
Proof.
  intros tol z p0 p1 p2 i edge t h Hi He A B C D Hsome.
  destruct (slice_triangle_spec tol z p0 p1 p2) as (r & Er & Hr). fold t in Hr.
  destruct r as [[[[s e] edge'] ev]|]; [clear Hsome|done].
  destruct Hr as (i' & Hi' & He' & _ & A' & B' & C' & D' & _ & _ & _ & Hlone).
  unfold is_above in *. clear Er s e ev.
  assert (i' = i /\ edge' = edge) as [-> ->].
  { subst t h. destruct i as [|[|[|i]]]; [..|lia]; destruct i' as [|[|[|i']]]; try lia; simpl in *; try lia;
    destruct edge as [|[|[|edge]]]; try lia; destruct edge' as [|[|[|edge']]]; try lia; simpl in *; lia. }
  assert (Hz : height tol z (corner t (S i)) = z -> (S i mod 3)%nat = edge -> False) by tauto. clear Hlone A' B' C' D' Hi' He'.
  fold h in A, B, C, D, Hz.
  (* the lone corner a, and the other two *)
  assert (Hgen : forall (a b c : pt3) (sg : bool),
     (if sg then z < h a /\ h b <= z /\ h c <= z else h a < z /\ z < h b /\ z < h c) ->
     let nx := normal_x h (a, b, c) in let ny := normal_y h (a, b, c) in
     let P := exact_cross z (h a) (h b) a b in let R := exact_cross z (h a) (h c) a c in
     exists k, (0 < k)%Q /\
       (R.1 - P.1 == (if sg then - k else k) * inject_Z ny)%Q /\
       (R.2 - P.2 == (if sg then k else - k) * inject_Z nx)%Q).
  { intros a b c sg Hs nx ny P R.
    assert (Hb : h b - h a <> 0) by (destruct sg; lia). assert (Hc : h c - h a <> 0) by (destruct sg; lia).
    assert (HD : 0 < (h b - h a) * (h c - h a)).
    { destruct sg; [apply Z.mul_neg_neg; lia|apply Z.mul_pos_pos; lia]. }
    set (n := if sg then h a - z else z - h a). assert (Hn : 0 < n) by (unfold n; destruct sg; lia).
    exists (inject_Z n / inject_Z ((h b - h a) * (h c - h a)))%Q.
    split. { apply Qlt_shift_div_l; [by apply inject_pos_q|]. rewrite Qmult_0_l. by apply inject_pos_q. }
    apply inject_nz in Hb. apply inject_nz in Hc.
    subst P R nx ny n. unfold exact_cross, normal_x, normal_y; cbn [fst snd].
    destruct sg; unfold Z.sub in *;
      repeat (rewrite inject_Z_plus in * || rewrite inject_Z_mult in * || rewrite inject_Z_opp in * );
      repeat (rewrite inject_Z_plus || rewrite inject_Z_mult || rewrite inject_Z_opp);
      split; field; auto. }
  assert (Hrev : forall a b, h a <> h b ->
     ((exact_cross z (h a) (h b) a b).1 == (exact_cross z (h b) (h a) b a).1)%Q /\
     ((exact_cross z (h a) (h b) a b).2 == (exact_cross z (h b) (h a) b a).2)%Q).
  { intros a b Hab. assert (H1 : h a - h b <> 0) by lia. assert (H2 : h b - h a <> 0) by lia.
    apply inject_nz in H1. apply inject_nz in H2. unfold exact_cross; cbn [fst snd].
    unfold Z.sub in *. rewrite ?inject_Z_plus, ?inject_Z_mult, ?inject_Z_opp in *. split; field; auto. }
  assert (Hrot : forall a b c, normal_x h (a, b, c) = normal_x h (b, c, a) /\ normal_y h (a, b, c) = normal_y h (b, c, a)).
  { intros. unfold normal_x, normal_y. split; ring. }
  assert (Hlow : forall w x y, z < h w -> h x <= z -> h x <> z -> z < h y ->
     exists k, (0 < k)%Q /\
      ((exact_cross z (h x) (h y) x y).1 - (exact_cross z (h w) (h x) w x).1 == - k * inject_Z (normal_y h (x, y, w)))%Q /\
      ((exact_cross z (h x) (h y) x y).2 - (exact_cross z (h w) (h x) w x).2 == k * inject_Z (normal_x h (x, y, w)))%Q).
  { intros w x y Hw Hx Hx' Hy. destruct (Hgen x y w false) as (k & Hk & E1 & E2); [simpl; lia|].
    exists k. split; [done|]. destruct (Hrev w x ltac:(lia)) as [R1 R2]. cbv zeta in E1, E2. rewrite R1, R2.
    split.
    - rewrite <- Qopp_mult_distr_l_q, <- E1 by done. ring.
    - rewrite <- (Qopp_involutive k), <- Qopp_mult_distr_l_q, <- E2. ring. }
  assert (Hup : forall w x y, h w <= z -> z < h x -> h y <= z ->
     exists k, (0 < k)%Q /\
      ((exact_cross z (h w) (h x) w x).1 - (exact_cross z (h x) (h y) x y).1 == - k * inject_Z (normal_y h (x, y, w)))%Q /\
      ((exact_cross z (h w) (h x) w x).2 - (exact_cross z (h x) (h y) x y).2 == k * inject_Z (normal_x h (x, y, w)))%Q).
  { intros w x y Hw Hx Hy. destruct (Hgen x y w true) as (k & Hk & E1 & E2); [simpl; lia|].
    exists k. split; [done|]. destruct (Hrev w x ltac:(lia)) as [R1 R2]. cbv zeta in E1, E2. rewrite R1, R2. done. }
  destruct (Hrot p0 p1 p2) as [X1 Y1]. destruct (Hrot p1 p2 p0) as [X2 Y2].
  subst t; cbv zeta.
  destruct i as [|[|[|i]]]; [..|lia]; destruct edge as [|[|[|edge]]]; try lia; cbn [corner Nat.modulo] in *; try lia.
  - rewrite X1, Y1. apply Hlow; try lia. intros E. by apply Hz.
  - apply (Hup p2 p0 p1); lia.
  - rewrite X1, Y1. apply (Hup p0 p1 p2); lia.
  - rewrite X1, Y1, X2, Y2. apply Hlow; try lia. intros E. by apply Hz.
  - apply Hlow; try lia. intros E. by apply Hz.
  - rewrite X1, Y1, X2, Y2. apply (Hup p1 p2 p0); lia.
Qed.

(** C07: no vertex at the slicing height, closed oriented mesh: everything is closed. *)
Theorem C07_closed_mesh_closed_contours : forall m tol z,
  closed_mesh m ->
  (forall v mv, mvertices m !! v = Some mv -> height tol z (mv_p mv) <> z) ->
  exists polys, slice_layer_loops m tol z = Ok (polys, []).
Proof.
  intros m tol z Hc Hoff. unfold slice_layer_loops.
  destruct (build_total m tol z Hc Hoff 0 (mfaces m)) as [segs Hs]; [done|].
  rewrite Hs. cbn [rbind]. by eapply mesh_loops_closed.
Qed.

(** C08: joining uses each segment exactly once.  The result corresponds one to one to chains of
    segment numbers; together the chains are a permutation of all segments; each polygon or polyline
    lists where its first segment starts and then where each of its segments ends; consecutive
    segments (and, for closed polygons, the last and the first) meet within 10 micron. *)
Theorem C08_joining_conserves_segments : forall segs face_to_seg vertex_faces,
  (forall f k, face_to_seg f = Some k -> (k < length segs)%nat) ->
  exists polys opens pchains ochains,
    makeBasicPolygonLoops segs face_to_seg vertex_faces = Ok (polys, opens) /\
    concat pchains ++ concat ochains ≡ₚ seq 0 (length segs) /\
    Forall2 (fun chain points => chain_points segs chain points /\ chain_linked segs chain /\
       exists first last, head chain = Some first /\ list.last chain = Some last /\ linked segs last first)
      pchains polys /\
    Forall2 (fun chain points => chain_points segs chain points /\ chain_linked segs chain) ochains opens.
Proof.
  intros segs fts vf Hok. destruct (makeBasic_ok segs fts vf Hok) as (p & o & pc & oc & E & Hp & Ho & HP).
  exists p, o, pc, oc. split; [done|]. split; [done|]. split; [|done].
  eapply Forall2_impl; [exact Hp|]. intros c pts [[? ?] ?]. done.
Qed.

(** A tetrahedron, sliced halfway: one closed triangle. *)
Definition tetrahedron : mesh := Mesh
  [MVertex (Pt3 0 0 0) [0;1;3]%nat; MVertex (Pt3 9000 0 0) [0;1;2]%nat;
   MVertex (Pt3 0 9000 0) [0;2;3]%nat; MVertex (Pt3 0 0 9000) [1;2;3]%nat]
  [MFace 0 2 1 (Some 3) (Some 2) (Some 1); MFace 0 1 3 (Some 0) (Some 2) (Some 3);
   MFace 1 2 3 (Some 0) (Some 3) (Some 1); MFace 2 0 3 (Some 0) (Some 1) (Some 2)]%nat.

Example C07_nonvacuous : closed_mesh tetrahedron /\
  (forall v mv, mvertices tetrahedron !! v = Some mv -> height MIDDLE 4500 (mv_p mv) <> 4500) /\
  slice_layer_loops tetrahedron MIDDLE 4500 = Ok ([[(0, 0); (4499, 0); (0, 4499); (0, 0)]], []).
Proof.
  split; [|split].
  - split; [|split].
    + intros fi f H. do 4 (destruct fi as [|fi]; [injection H as <-; simpl; lia|]). by destruct fi.
    + intros fi f i gi g j Hf Hg Hi Hj.
      do 4 (destruct fi as [|fi]; [injection Hf as <-;
        do 4 (destruct gi as [|gi]; [injection Hg as <-;
          destruct i as [|[|[|i]]]; [..|lia]; (destruct j as [|[|[|j]]]; [..|lia]); simpl; intros [= ]; done|]);
        by destruct gi|]). by destruct fi.
    + intros fi f i Hf Hi.
      do 4 (destruct fi as [|fi]; [injection Hf as <-; destruct i as [|[|[|i]]]; [..|lia]; simpl;
        (eexists _, _; first [exists 0%nat; split; [reflexivity|]; split; [reflexivity|]; split; [lia|]; reflexivity
         |exists 1%nat; split; [reflexivity|]; split; [reflexivity|]; split; [lia|]; reflexivity
         |exists 2%nat; split; [reflexivity|]; split; [reflexivity|]; split; [lia|]; reflexivity])|]). by destruct fi.
  - intros v mv H. do 4 (destruct v as [|v]; [injection H as <-; vm_compute; congruence|]). by destruct v.
  - vm_compute. reflexivity.
Qed.

(** An open chain and a closed one. *)
Example C08_nonvacuous :
  makeBasicPolygonLoops
    [Segment (0,0) (100,0) 0 (Some 1%nat) None; Segment (103,0) (0,100) 1 (Some 2%nat) None;
     Segment (0,101) (0,3) 2 (Some 0%nat) None; Segment (500,500) (600,600) 3 (Some 0%nat) None]
    (fun f => if (f <? 4)%nat then Some f else None) (fun _ => []) =
  Ok ([[(0,0); (100,0); (0,100); (0,3)]], [[(500,500); (600,600)]]).
Proof. vm_compute. reflexivity. Qed.

Print Assumptions C05_triangle_segment.
Print Assumptions C05_material_on_the_left.
Print Assumptions C07_closed_mesh_closed_contours.
Print Assumptions C08_joining_conserves_segments.
