(** C40: the rings of the interleaved prime tower. *)
From Coq Require Import ZArith QArith Lia Lqa.
From stdpp Require Import list.
From Verif Require Import Common ExtruderOrder_Model PrimeTower_Model.
Open Scope Z_scope.

(** * Specification *)

(** The band around the middle of the tower that a line of width [lw] covers: the radii of its
    inner and outer edge. *)
Definition band (lw : Z) (x : line) : Z * Z :=
  match x with
  | Circle r => (r - lw ÷ 2, r + lw ÷ 2)
  | Wheel ri ro => (ri - lw ÷ 2, ro + lw ÷ 2)
  end.

(** The bands of all lines of a layer. *)
Definition bands (t : tower_settings) (tps : list toolpath) : list (Z * Z) :=
  concat (map (λ tp, map (band (line_width t (tp_extruder tp))) (tp_lines tp)) tps).

(** The bands lie between the radii [a] and [c], and no two of them overlap. *)
Definition within (a c : Z) (bs : list (Z * Z)) : Prop :=
  ∀ b, b ∈ bs → a <= b.1 ∧ b.1 <= b.2 ∧ b.2 <= c.
Definition disjoint (bs : list (Z * Z)) : Prop :=
  ∀ i j b b', i ≠ j → bs !! i = Some b → bs !! j = Some b' → b.2 <= b'.1 ∨ b'.2 <= b.1.

(** The radius down to which a layer is filled, from the outside. *)
Definition inner_edge (tps : list toolpath) : option Z := tp_inner <$> last tps.

(** The volume of a list of rings. *)
Definition rings_volume (t : tower_settings) (e : nat) (rs : list Z) : Q :=
  foldr (λ r v, inject_Z (circle_length t r * line_width t e * tower_layer_height t) * tower_flow t e + v)%Q 0%Q rs.

Definition positive_widths (t : tower_settings) : Prop := ∀ e, 0 < line_width t e.

(** * Bands *)

Definition stacked (a c : Z) (bs : list (Z * Z)) : Prop := within a c bs ∧ disjoint bs.

Lemma stacked_nil a c : stacked a c [].
Proof. split; [intros b []%not_elem_of_nil|intros i j b b' _ H; by rewrite lookup_nil in H]. Qed.

Lemma stacked_app a b c l1 l2 :
  a <= b <= c → stacked b c l1 → stacked a b l2 → stacked a c (l1 ++ l2).
Proof.
  intros H [W1 D1] [W2 D2]. split.
  - intros x [Hx|Hx]%elem_of_app; [apply W1 in Hx|apply W2 in Hx]; lia.
  - intros i j x y Hij Hi Hj. apply lookup_app_Some in Hi as [Hi|[Hil Hi]], Hj as [Hj|[Hjl Hj]].
    + by eapply (D1 i j).
    + apply elem_of_list_lookup_2, W1 in Hi. apply elem_of_list_lookup_2, W2 in Hj. right. lia.
    + apply elem_of_list_lookup_2, W2 in Hi. apply elem_of_list_lookup_2, W1 in Hj. left. lia.
    + eapply (D2 _ _); [|exact Hi|exact Hj]. lia.
Qed.

Lemma stacked_app_r a b c l1 l2 :
  a <= b <= c → stacked b c l2 → stacked a b l1 → stacked a c (l1 ++ l2).
Proof.
  intros H [W1 D1] [W2 D2]. split.
  - intros x [Hx|Hx]%elem_of_app; [apply W2 in Hx|apply W1 in Hx]; lia.
  - intros i j x y Hij Hi Hj. apply lookup_app_Some in Hi as [Hi|[Hil Hi]], Hj as [Hj|[Hjl Hj]].
    + by eapply (D2 i j).
    + apply elem_of_list_lookup_2, W2 in Hi. apply elem_of_list_lookup_2, W1 in Hj. left. lia.
    + apply elem_of_list_lookup_2, W1 in Hi. apply elem_of_list_lookup_2, W2 in Hj. right. lia.
    + eapply (D1 _ _); [|exact Hi|exact Hj]. lia.
Qed.

Lemma stacked_singleton a c b : a <= b.1 → b.1 <= b.2 → b.2 <= c → stacked a c [b].
Proof.
  intros. split.
  - intros x ->%elem_of_list_singleton. done.
  - intros i j x y Hij Hi Hj. apply lookup_lt_Some in Hi as Hi', Hj as Hj'. simpl in *. lia.
Qed.

Lemma stacked_widen a c a' c' l : a' <= a → c <= c' → stacked a c l → stacked a' c' l.
Proof. intros ? ? [W D]. split; [|done]. intros x Hx. apply W in Hx. lia. Qed.

Lemma bands_app t l1 l2 : bands t (l1 ++ l2) = bands t l1 ++ bands t l2.
Proof. unfold bands. by rewrite map_app, concat_app. Qed.

Lemma semi_bounds lw : 0 < lw → 0 <= lw ÷ 2 ∧ 2 * (lw ÷ 2) <= lw <= 2 * (lw ÷ 2) + 1.
Proof. intros H. rewrite Z.quot_div_nonneg by lia. pose proof (Z.div_mod lw 2). pose proof (Z.mod_pos_bound lw 2). lia. Qed.

(** * Rings of one extruder *)

Lemma prime_rings_spec fuel t e r v rs inner :
  0 < line_width t e → prime_rings fuel t e r v = Ok (rs, inner) →
  inner = r + line_width t e ÷ 2 - Z.of_nat (length rs) * line_width t e ∧
  stacked inner (r + line_width t e ÷ 2) (map (band (line_width t e)) (map Circle rs)) ∧
  (rs ≠ [] → 2 * (line_width t e ÷ 2) - line_width t e <= inner) ∧
  ((required_volume t e <= v + rings_volume t e rs)%Q ∨ inner < 2 * (line_width t e ÷ 2)) ∧
  (rs = [] → (required_volume t e <= v)%Q ∨ r < line_width t e ÷ 2).
Proof.
  intros Hlw. pose proof (semi_bounds _ Hlw) as Hs. set (semi := line_width t e ÷ 2) in *.
  revert r v rs inner. induction fuel as [|fuel IH]; intros r v rs inner; cbn [prime_rings]; [done|].
  fold semi. destruct (negb (Qle_bool (required_volume t e) v) && (semi <=? r)) eqn:E.
  - rewrite rbind_ok. intros ([rs1 i1] & H1 & H). simpl in H. injection H as <- <-.
    apply andb_true_iff in E as [_ E%Z.leb_le].
    destruct (IH _ _ _ _ H1) as (Hi & Hst & Hge & Hvol & Hnil). split; [|split; [|split; [|split; [|done]]]].
    + rewrite Hi. cbn [length]. lia.
    + cbn [map]. change (stacked i1 (r + semi) ([band (line_width t e) (Circle r)] ++ map (band (line_width t e)) (map Circle rs1))).
      apply stacked_app with (r - semi).
      * rewrite Hi. lia.
      * apply stacked_singleton; unfold band; cbn [fst snd]; fold semi; lia.
      * eapply stacked_widen; [| |exact Hst]; lia.
    + intros _. destruct rs1 as [|r1 rs1]; [|by apply Hge]. rewrite Hi. simpl. lia.
    + destruct Hvol as [Hvol|Hvol]; [left|by right]. cbn [rings_volume foldr]. fold (rings_volume t e rs1).
      rewrite Qplus_assoc. exact Hvol.
  - intros [= <- <-]. cbn [length map]. split; [lia|]. split; [apply stacked_nil|]. split; [done|].
    apply andb_false_iff in E as [E|E].
    + apply negb_false_iff, Qle_bool_iff in E. split; [left|by left]. cbn [rings_volume foldr]. by rewrite Qplus_0_r.
    + apply Z.leb_gt in E. split; [right; lia|by right].
Qed.

Lemma prime_rings_total fuel t e r v :
  0 < line_width t e → r + 1 < Z.of_nat fuel → (0 < fuel)%nat → ∃ x, prime_rings fuel t e r v = Ok x.
Proof.
  intros Hlw. pose proof (semi_bounds _ Hlw) as Hs.
  revert r v. induction fuel as [|fuel IH]; intros r v Hf Hf0; cbn [prime_rings]; [lia|].
  destruct (negb (Qle_bool (required_volume t e) v) && (line_width t e ÷ 2 <=? r)) eqn:E.
  - apply andb_true_iff in E as [_ E%Z.leb_le].
    destruct (IH (r - line_width t e) (v + inject_Z (circle_length t r * line_width t e * tower_layer_height t) * tower_flow t e)%Q) as (x & ->);
      [lia|lia|]. simpl. by eexists.
  - by eexists.
Qed.

Lemma prime_toolpaths_total t e outer : 0 < line_width t e → ∃ x, prime_toolpaths t e outer = Ok x.
Proof.
  intros H. unfold prime_toolpaths. apply prime_rings_total; [done| |lia].
  pose proof (semi_bounds _ H). lia.
Qed.

Lemma prime_toolpaths_spec t e outer rs inner :
  0 < line_width t e → prime_toolpaths t e outer = Ok (rs, inner) →
  inner <= outer ∧ (rs = [] → inner = outer) ∧
  stacked inner outer (map (band (line_width t e)) (map Circle rs)) ∧
  (-1 <= outer → -1 <= inner) ∧
  ((required_volume t e <= rings_volume t e rs)%Q ∨ inner < 2 * (line_width t e ÷ 2)).
Proof.
  intros Hlw H. pose proof (semi_bounds _ Hlw) as Hs.
  apply prime_rings_spec in H as (Hi & Hst & Hge & Hvol & Hnil); [|done].
  replace (outer - line_width t e ÷ 2 + line_width t e ÷ 2) with outer in * by lia.
  split; [nia|]. split; [intros ->; simpl in Hi; lia|]. split; [done|]. split.
  - intros Ho. destruct rs; [simpl in Hi; lia|]. specialize (Hge ltac:(done)). lia.
  - by rewrite Qplus_0_l in Hvol.
Qed.

(** * Supporting rings *)

Lemma support_toolpaths_total t e outer inner :
  0 < line_width t e → ∃ x, support_toolpaths t e outer inner = Ok x.
Proof.
  intros H. unfold support_toolpaths. rewrite (proj2 (Z.eqb_neq _ _)) by lia.
  rewrite (proj2 (Z.leb_gt _ _)) by lia. simpl. by eexists.
Qed.

Lemma stacked_map_down (f : nat → Z * Z) n o w :
  0 <= w → (∀ i, (i < n)%nat → o - (Z.of_nat i + 1) * w <= (f i).1 ∧ (f i).1 <= (f i).2 ∧ (f i).2 <= o - Z.of_nat i * w) →
  stacked (o - Z.of_nat n * w) o (map f (seq 0 n)).
Proof.
  intros Hw. induction n as [|n IH]; intros Hf; [apply stacked_nil|].
  rewrite seq_S, map_app. simpl. destruct (Hf n) as (? & ? & ?); [lia|].
  apply stacked_app with (o - Z.of_nat n * w); [nia|apply IH; intros i ?; apply Hf; lia|].
  apply stacked_singleton; nia.
Qed.

Lemma stacked_map_up (f : nat → Z * Z) n o w :
  0 <= w → (∀ i, (i < n)%nat → o + Z.of_nat i * w <= (f i).1 ∧ (f i).1 <= (f i).2 ∧ (f i).2 <= o + (Z.of_nat i + 1) * w) →
  stacked o (o + Z.of_nat n * w) (map f (seq 0 n)).
Proof.
  intros Hw. induction n as [|n IH]; intros Hf; [apply stacked_nil|].
  rewrite seq_S, map_app. simpl. destruct (Hf n) as (? & ? & ?); [lia|].
  apply stacked_app_r with (o + Z.of_nat n * w); [nia| |apply IH; intros i ?; apply Hf; lia].
  apply stacked_singleton; nia.
Qed.

Lemma support_toolpaths_spec t e outer inner ls :
  0 < line_width t e → inner <= outer → support_toolpaths t e outer inner = Ok ls →
  stacked inner outer (map (band (line_width t e)) ls) ∧
  (line_width t e <= outer - inner → ls ≠ []).
Proof.
  intros Hlw Hio. pose proof (semi_bounds _ Hlw) as Hs. unfold support_toolpaths.
  rewrite (proj2 (Z.eqb_neq _ _)) by lia. rewrite (proj2 (Z.leb_gt _ _)) by lia. simpl. intros [= <-].
  set (lw := line_width t e) in *. set (semi := lw ÷ 2) in *. set (delta := outer - inner).
  set (bridge := Z.max (max_bridging t e) lw). set (na := - (- delta / bridge)).
  assert (0 < bridge) as Hb by lia.
  assert (0 <= na) as Hna.
  { unfold na. pose proof (Z.div_le_upper_bound (- delta) bridge 0 Hb). lia. }
  assert (0 < delta → 0 < na) as Hna'.
  { intros ?. unfold na. assert (- delta / bridge < 0); [|lia]. apply Z.div_lt_upper_bound; lia. }
  assert (0 <= delta ÷ lw ∧ lw * (delta ÷ lw) <= delta < lw * (delta ÷ lw) + lw) as Hq.
  { rewrite Z.quot_div_nonneg by lia. pose proof (Z.div_mod delta lw). pose proof (Z.mod_pos_bound delta lw).
    pose proof (Z.div_pos delta lw). lia. }
  destruct (Z.leb_spec (delta ÷ lw) na).
  - split.
    + rewrite map_map. eapply stacked_widen; [| |apply (stacked_map_down _ _ outer lw)]; [|lia|lia|].
      * rewrite Z2Nat.id by lia. lia.
      * intros i Hi. unfold band. cbn [fst snd]. fold semi. lia.
    + intros Hd. destruct (Z.to_nat (delta ÷ lw)) eqn:E; [|done]. nia.
  - destruct (Z.ltb_spec 0 na) as [Hpos|Hpos].
    + assert (0 <= delta ÷ na ∧ na * (delta ÷ na) <= delta ∧ lw <= delta ÷ na) as (Hq1 & Hq2 & Hq3).
      { rewrite Z.quot_div_nonneg by lia. split; [apply Z.div_pos; lia|]. split; [apply Z.mul_div_le; lia|].
        apply Z.div_le_lower_bound; [lia|]. nia. }
      split.
      * rewrite map_map. eapply stacked_widen; [| |apply (stacked_map_up _ _ inner (delta ÷ na))]; [lia| |lia|].
        -- rewrite Z2Nat.id by lia. lia.
        -- intros i Hi. unfold band. cbn [fst snd]. fold semi. lia.
      * intros _. destruct (Z.to_nat na) eqn:E; [lia|done].
    + split; [apply stacked_nil|]. intros. exfalso. lia.
Qed.

(** * Layers *)

Lemma prime_layer_total t us next sup : positive_widths t → ∃ x, prime_layer_paths t us next sup = Ok x.
Proof.
  intros Hp. revert next sup. induction us as [|u us IH]; intros next sup; cbn [prime_layer_paths]; [by eexists|].
  destruct (ex_prime u); [apply IH..|].
  destruct (prime_toolpaths_total t (ex_nr u) next (Hp _)) as (x & ->). simpl.
  destruct (IH x.2 sup) as (y & ->). simpl. by eexists.
Qed.

Lemma prime_layer_spec t us next0 sup next tps sup' :
  positive_widths t → prime_layer_paths t us next0 sup = Ok (next, tps, sup') →
  next <= next0 ∧ stacked next next0 (bands t tps) ∧
  (bands t tps = [] → next = next0) ∧ (∀ tp, last tps = Some tp → tp_inner tp = next) ∧
  (∀ tp, head tps = Some tp → tp_outer tp = next0) ∧
  map tp_extruder tps = map ex_nr (List.filter (λ u, bool_decide (ex_prime u = PPrime)) us) ∧
  ((∃ u, u ∈ us ∧ ex_prime u = PSupport ∧ sup' = ex_nr u) ∨ (∀ u, u ∈ us → ex_prime u ≠ PSupport) ∧ sup' = sup) ∧
  (-1 <= next0 → -1 <= next) ∧
  (∀ tp, tp ∈ tps → next <= tp_inner tp ∧ ∃ rs, tp_lines tp = map Circle rs ∧
     ((required_volume t (tp_extruder tp) <= rings_volume t (tp_extruder tp) rs)%Q
      ∨ tp_inner tp < 2 * (line_width t (tp_extruder tp) ÷ 2))).
Proof.
  intros Hp. revert next0 sup next tps sup'. induction us as [|u us IH]; intros next0 sup next tps sup'; cbn [prime_layer_paths].
  - intros [= <- <- <-]. split; [lia|]. split; [apply stacked_nil|]. do 4 (split; [done|]).
    split; [right; split; [intros u []%not_elem_of_nil|done]|]. split; [done|].
    intros tp []%not_elem_of_nil.
  - destruct (ex_prime u) eqn:Eu.
    + intros H. destruct (IH _ _ _ _ _ H) as (H1 & H2 & H3 & H4 & H5 & H6 & H7 & H8 & H9).
      do 5 (split; [done|]). split; [|split; [|split; [done|done]]].
      * simpl. rewrite Eu. simpl. done.
      * destruct H7 as [(v & ? & ? & ?)|[Hno ?]]; [left; exists v; split; [by right|done]|right; split; [|done]].
        intros v [->|Hv]%elem_of_cons; [by rewrite Eu|by apply Hno].
    + intros H. destruct (IH _ _ _ _ _ H) as (H1 & H2 & H3 & H4 & H5 & H6 & H7 & H8 & H9).
      do 5 (split; [done|]). split; [|split; [|split; [done|done]]].
      * simpl. rewrite Eu. simpl. done.
      * left. destruct H7 as [(v & ? & ? & ?)|[Hno ?]]; [exists v; split; [by right|done]|exists u; split; [by left|done]].
    + rewrite rbind_ok. intros ([rs i] & Hrs & H). simpl in H. apply rbind_ok in H as ([[n1 tps1] s1] & H & Heq).
      simpl in Heq. injection Heq as <- <- <-.
      apply prime_toolpaths_spec in Hrs as (P1 & P0 & P2 & P3 & P4); [|apply Hp].
      destruct (IH _ _ _ _ _ H) as (H1 & H2 & H3 & H4 & H5 & H6 & H7 & H8 & H9).
      split; [lia|]. split.
      { change (bands t (ToolPath (ex_nr u) (map Circle rs) next0 i :: tps1))
          with (map (band (line_width t (ex_nr u))) (map Circle rs) ++ bands t tps1).
        by apply stacked_app with i. }
      split.
      { intros Hb. change (map (band (line_width t (ex_nr u))) (map Circle rs) ++ bands t tps1 = []) in Hb.
        apply app_eq_nil in Hb as [Hb1 Hb2]. rewrite (H3 Hb2). apply P0. by destruct rs. }
      split.
      { intros tp. rewrite last_cons. destruct (last tps1) eqn:El; [intros [= <-]; by apply H4|].
        intros [= <-]. simpl. apply last_None in El. symmetry. apply H3. by subst tps1. }
      split; [intros tp [= <-]; done|]. split; [simpl; rewrite Eu; simpl; by rewrite H6|].
      split.
      { destruct H7 as [(v & ? & ? & ?)|[Hno ?]]; [left; exists v; split; [by right|done]|right; split; [|done]].
        intros v [->|Hv]%elem_of_cons; [by rewrite Eu|by apply Hno]. }
      split; [intros; apply H8; lia|].
      intros tp [->|Htp]%elem_of_cons; [|by apply H9]. split; [done|]. exists rs. split; [done|]. exact P4.
Qed.

Lemma tower_layer_total t shell us : positive_widths t → ∃ x, tower_layer t shell us = Ok x.
Proof.
  intros Hp. unfold tower_layer. destruct (prime_layer_total t us (tower_radius t) 0 Hp) as ([[next tps] sup] & ->).
  simpl. destruct (0 <? Z.max shell (tower_radius t - next)); [|by eexists].
  destruct (_ <? next); [|by eexists].
  destruct tps as [|tp tps].
  - simpl. destruct (support_toolpaths_total t sup next (tower_radius t - Z.max (Z.max shell (tower_radius t - next)) (min_shell t)) (Hp _)) as (ls & ->).
    simpl. by eexists.
  - destruct (last (tp :: tps)) as [tl|] eqn:El; [|by apply last_None in El].
    destruct (support_toolpaths_total t (tp_extruder tl) next (tower_radius t - Z.max (Z.max shell (tower_radius t - next)) (min_shell t)) (Hp _)) as (ls & ->).
    simpl. by eexists.
Qed.

Lemma last_take_snoc {A} (l : list A) x : last l = Some x → l = take (length l - 1) l ++ [x].
Proof.
  intros H. destruct l as [|y l] using rev_ind; [done|]. rewrite last_snoc in H. injection H as ->.
  rewrite app_length. simpl. replace (length l + 1 - 1)%nat with (length l) by lia. by rewrite take_app.
Qed.

Lemma tower_layer_spec t shell us shell' o :
  positive_widths t → 0 <= shell → tower_layer t shell us = Ok (shell', o) →
  shell <= shell' ∧
  match o with
  | None => shell' = 0
  | Some tps =>
      0 < shell' ∧ min_shell t <= shell' ∧ inner_edge tps = Some (tower_radius t - shell') ∧
      stacked (tower_radius t - shell') (tower_radius t) (bands t tps) ∧
      ((∃ u, u ∈ us ∧ ex_prime u ≠ PNone) → ∀ tp, tp ∈ tps → tp_extruder tp ∈ map ex_nr us) ∧
      (length (List.filter (λ u, bool_decide (ex_prime u = PPrime)) us) ≠ 1%nat →
        tp_outer <$> head tps = Some (tower_radius t)) ∧
      (∀ u, u ∈ us → ex_prime u = PPrime → ∃ tp rs ls, tp ∈ tps ∧ tp_extruder tp = ex_nr u ∧
         tp_lines tp = map Circle rs ++ ls ∧
         ((required_volume t (ex_nr u) <= rings_volume t (ex_nr u) rs)%Q ∨
          tower_radius t - shell' < 2 * (line_width t (ex_nr u) ÷ 2))) ∧
      ((∀ e, line_width t e <= shell') → bands t tps ≠ [])
  end.
Proof.
  intros Hp Hsh. unfold tower_layer. rewrite rbind_ok. intros ([[next tps] sup] & Hpl & H). simpl in H.
  apply prime_layer_spec in Hpl as (H1 & H2 & H3 & H4 & H5 & H6 & H7 & H8 & H9); [|done].
  assert (∀ u, u ∈ us → ex_prime u = PPrime → ∃ tp, tp ∈ tps ∧ tp_extruder tp = ex_nr u) as Hprime.
  { intros u Hu Hpu. assert (ex_nr u ∈ map tp_extruder tps) as Hin.
    { rewrite H6. apply elem_of_list_fmap. exists u. split; [done|]. apply elem_of_list_In, filter_In.
      split; [by apply elem_of_list_In|]. by rewrite Hpu. }
    apply elem_of_list_fmap in Hin as (tp & ? & ?). by exists tp. }
  assert (∀ tp, tp ∈ tps → tp_extruder tp ∈ map ex_nr us) as Hex.
  { intros tp Htp. assert (tp_extruder tp ∈ map tp_extruder tps) as Hin by (apply elem_of_list_fmap; by exists tp).
    rewrite H6 in Hin. apply elem_of_list_fmap in Hin as (u & -> & Hu). apply elem_of_list_In, filter_In in Hu as [Hu _].
    apply elem_of_list_fmap. exists u. split; [done|by apply elem_of_list_In]. }
  assert (length (List.filter (λ u, bool_decide (ex_prime u = PPrime)) us) = length tps) as Hlen.
  { by rewrite <-(map_length tp_extruder tps), H6, map_length. }
  destruct (Z.ltb_spec 0 (Z.max shell (tower_radius t - next))) as [Hpos|Hpos].
  2:{ injection H as <- <-. lia. }
  set (sh := Z.max (Z.max shell (tower_radius t - next)) (min_shell t)) in *.
  destruct (Z.ltb_spec (tower_radius t - sh) next) as [Hin|Hin].
  - destruct tps as [|tp0 tps0] eqn:Etps.
    + (* only support *)
      simpl in H. apply rbind_ok in H as (ls & Hls & H). injection H as <- <-.
      apply support_toolpaths_spec in Hls as [Hst Hne]; [|apply Hp|lia].
      assert (next = tower_radius t) as -> by by apply H3.
      split; [lia|]. split; [lia|]. split; [lia|]. split; [done|]. split.
      { unfold bands. simpl. by rewrite app_nil_r. }
      split.
      { intros (u & Hu & Hnu) tp ->%elem_of_list_singleton. simpl.
        destruct H7 as [(v & Hv & _ & ->)|[Hno _]]; [apply elem_of_list_fmap; by exists v|].
        exfalso. destruct (ex_prime u) eqn:Eu; [done|by apply (Hno u)|].
        destruct (Hprime u Hu Eu) as (tp & Htp & _). by apply elem_of_nil in Htp. }
      split; [done|]. split.
      { intros u Hu Hpu. destruct (Hprime u Hu Hpu) as (tp & Htp & _). by apply elem_of_nil in Htp. }
      intros Hw. unfold bands. simpl. rewrite app_nil_r. specialize (Hne ltac:(specialize (Hw sup); lia)).
      by destruct ls.
    + rewrite <-Etps in *. assert (tps ≠ []) as Hnn by by rewrite Etps.
      destruct (last tps) as [tl|] eqn:El; [|by apply last_None in El].
      apply rbind_ok in H as (ls & Hls & H). injection H as <- <-.
      apply support_toolpaths_spec in Hls as [Hst Hne]; [|apply Hp|lia].
      pose proof (last_take_snoc _ _ El) as Hsplit. set (front := take (length tps - 1) tps) in *.
      set (tl' := ToolPath (tp_extruder tl) (tp_lines tl ++ ls) next (tower_radius t - sh)).
      assert (tl ∈ tps) as Htl by (rewrite Hsplit; apply elem_of_app; right; by left).
      split; [lia|]. split; [lia|]. split; [lia|]. split.
      { unfold inner_edge. by rewrite last_snoc. }
      split.
      { assert (bands t (front ++ [tl']) = bands t tps ++ map (band (line_width t (tp_extruder tl))) ls) as ->.
        { rewrite Hsplit, !bands_app. unfold bands at 2 4. simpl. by rewrite !app_nil_r, map_app, app_assoc. }
        apply stacked_app with next; [lia|done|done]. }
      split.
      { intros _ tp [Htp|Htp]%elem_of_app; [apply Hex; rewrite Hsplit; apply elem_of_app; by left|].
        apply elem_of_list_singleton in Htp as ->. simpl. by apply Hex. }
      split.
      { rewrite Hlen. intros Hne1. destruct front as [|tpf front'] eqn:Ef.
        - exfalso. apply Hne1. rewrite Hsplit. done.
        - simpl. f_equal. apply H5. by rewrite Hsplit. }
      split.
      { intros u Hu Hpu. destruct (Hprime u Hu Hpu) as (tp & Htp & Hte). destruct (H9 tp Htp) as (Hge & rs & Hrs & Hvol).
        rewrite Hte in Hvol.
        assert ((required_volume t (ex_nr u) <= rings_volume t (ex_nr u) rs)%Q ∨ tower_radius t - sh < 2 * (line_width t (ex_nr u) ÷ 2)) as Hor.
        { destruct Hvol as [?|?]; [by left|right]. lia. }
        rewrite Hsplit in Htp. apply elem_of_app in Htp as [Htp|Htp%elem_of_list_singleton].
        - exists tp, rs, []. split; [apply elem_of_app; by left|]. split; [done|]. rewrite app_nil_r. done.
        - subst tp. exists tl', rs, ls. split; [apply elem_of_app; right; by left|]. split; [done|]. simpl. by rewrite Hrs. }
      intros Hw Hb. rewrite bands_app in Hb. apply app_eq_nil in Hb as [Hb1 Hb2].
      unfold bands in Hb2. simpl in Hb2. rewrite app_nil_r, map_app in Hb2. apply app_eq_nil in Hb2 as [Hb2 Hb3].
      assert (next = tower_radius t) as Hnext.
      { apply H3. rewrite Hsplit, bands_app, Hb1. unfold bands. simpl. by rewrite Hb2. }
      apply Hne; [|by destruct ls]. specialize (Hw (tp_extruder tl)). lia.
  - injection H as <- <-. assert (tower_radius t - sh = next) as Hnx by lia.
    assert (tps ≠ []) as Hnn.
    { intros ->. rewrite (H3 eq_refl) in *. lia. }
    split; [lia|]. split; [lia|]. split; [lia|]. split.
    { unfold inner_edge. destruct (last tps) as [tl|] eqn:El; [|by apply last_None in El]. simpl. f_equal.
      rewrite (H4 _ eq_refl). lia. }
    rewrite Hnx. split; [done|]. split; [intros _; done|]. split.
    { intros _. destruct tps as [|tp0 tps0]; [done|]. simpl. f_equal. by apply H5. }
    split.
    { intros u Hu Hpu. destruct (Hprime u Hu Hpu) as (tp & Htp & Hte). destruct (H9 tp Htp) as (Hge & rs & Hrs & Hvol).
      rewrite Hte in Hvol. exists tp, rs, []. split; [done|]. split; [done|]. rewrite app_nil_r. split; [done|].
      destruct Hvol as [?|?]; [by left|right]. lia. }
    intros _ Hb. apply H3 in Hb. lia.
Qed.

(** * The whole tower *)

Lemma polish_fst st uses : map fst (polish st uses) = map fst uses.
Proof. revert st. induction uses as [|[l us] uses IH]; intros st; cbn [polish map fst]; [done|]. by rewrite IH. Qed.

Definition primes (us : list extruder_use) : list nat :=
  map ex_nr (List.filter (λ u, bool_decide (ex_prime u = PPrime)) us).

Lemma polish_layer st uses l us' :
  (l, us') ∈ polish st uses →
  ∃ us, (l, us) ∈ uses ∧ primes us' = primes us ∧ (us ≠ [] → map ex_nr us' = map ex_nr us) ∧
    ∃ u, u ∈ us' ∧ ex_prime u ≠ PNone.
Proof.
  revert st. induction uses as [|[l0 us0] uses IH]; intros st; cbn [polish]; [intros []%not_elem_of_nil|].
  intros [Hin|Hin]%elem_of_cons.
  - injection Hin as -> ->. exists us0. split; [by left|].
    destruct (last us0) as [u|] eqn:El.
    + pose proof (last_take_snoc _ _ El) as Hs. destruct (forallb _ us0) eqn:Ef.
      * rewrite forallb_forall in Ef. split; [|split].
        -- transitivity (primes (take (length us0 - 1) us0 ++ [u])); [|by rewrite <-Hs].
           unfold primes. rewrite !List.filter_app, !map_app. f_equal.
           assert (ex_prime u = PNone) as Hnone; [|destruct u; simpl in Hnone; by rewrite Hnone].
           assert (In u us0) as Hu by (rewrite Hs; apply in_or_app; right; by left).
           apply Ef in Hu. by apply bool_decide_eq_true in Hu.
        -- intros _. transitivity (map ex_nr (take (length us0 - 1) us0 ++ [u])); [|by rewrite <-Hs]. by rewrite !map_app.
        -- exists (Use (ex_nr u) PSupport). split; [apply elem_of_app; right; by left|done].
      * split; [done|]. split; [done|].
        apply not_true_iff_false in Ef. destruct (decide (Exists (λ u, ex_prime u ≠ PNone) us0)) as [He|He].
        { apply Exists_exists in He as (v & ? & ?). by exists v. }
        exfalso. apply Ef. apply forallb_forall. intros v Hv. apply bool_decide_eq_true.
        destruct (decide (ex_prime v = PNone)); [done|]. exfalso. apply He, Exists_exists. exists v.
        split; [by apply elem_of_list_In|done].
    + apply last_None in El as ->. split; [done|]. split; [done|].
      exists (Use st PSupport). split; [by left|done].
  - destruct (IH _ Hin) as (us & Hus & ?). exists us. split; [by right|done].
Qed.

Lemma polish_covers st uses l us :
  (l, us) ∈ uses → ∃ us', (l, us') ∈ polish st uses ∧ primes us' = primes us.
Proof.
  revert st. induction uses as [|[l0 us0] uses IH]; intros st; cbn [polish]; [intros []%not_elem_of_nil|].
  intros [Hin|Hin]%elem_of_cons.
  - injection Hin as -> ->. eexists. split; [by left|].
    destruct (last us0) as [u|] eqn:El.
    + pose proof (last_take_snoc _ _ El) as Hs. destruct (forallb _ us0) eqn:Ef; [|done].
      rewrite forallb_forall in Ef.
      transitivity (primes (take (length us0 - 1) us0 ++ [u])); [|by rewrite <-Hs].
           unfold primes. rewrite !List.filter_app, !map_app. f_equal.
      assert (ex_prime u = PNone) as Hnone; [|destruct u; simpl in Hnone; by rewrite Hnone].
      assert (In u us0) as Hu by (rewrite Hs; apply in_or_app; right; by left).
      apply Ef in Hu. by apply bool_decide_eq_true in Hu.
    + by apply last_None in El as ->.
  - match goal with |- context [polish (active_after st ?u) uses] => destruct (IH (active_after st u) Hin) as (us' & Hus & ?) end.
    exists us'. split; [right; exact Hus|done].
Qed.

Lemma tower_layers_total t shell uses : positive_widths t → ∃ m, tower_layers t shell uses = Ok m.
Proof.
  intros Hp. revert shell. induction uses as [|[l us] uses IH]; intros shell; cbn [tower_layers]; [by eexists|].
  destruct (tower_layer_total t shell us Hp) as (x & ->). simpl. destruct (IH x.1) as (m & ->). simpl. by eexists.
Qed.

Lemma tower_layers_in t shell uses m l tps :
  positive_widths t → 0 <= shell → tower_layers t shell uses = Ok m → (l, tps) ∈ m →
  ∃ us sh sh', (l, us) ∈ uses ∧ shell <= sh ∧ tower_layer t sh us = Ok (sh', Some tps).
Proof.
  intros Hp. revert shell m. induction uses as [|[l0 us0] uses IH]; intros shell m Hsh; cbn [tower_layers].
  - intros [= <-] []%not_elem_of_nil.
  - rewrite rbind_ok. intros ([sh1 o] & H1 & H). simpl in H. apply rbind_ok in H as (below & Hb & H). injection H as <-.
    pose proof (tower_layer_spec _ _ _ _ _ Hp Hsh H1) as [Hle _].
    intros [Hin|Hin]%elem_of_app.
    + destruct (IH sh1 _ ltac:(lia) Hb Hin) as (us & sh & sh' & ? & ? & ?). exists us, sh, sh'.
      split; [by right|]. split; [lia|done].
    + destruct o as [tps0|]; [|by apply elem_of_nil in Hin]. apply elem_of_list_singleton in Hin. injection Hin as -> ->.
      exists us0, shell, sh1. split; [by left|]. split; [lia|done].
Qed.

Lemma tower_layers_shell t shell uses m pre l tps post :
  positive_widths t → 0 <= shell → tower_layers t shell uses = Ok m → m = pre ++ (l, tps) :: post →
  ∃ a, inner_edge tps = Some a ∧ a <= tower_radius t - shell ∧
  ∀ l' tps', (l', tps') ∈ pre → ∃ a', inner_edge tps' = Some a' ∧ a' <= a.
Proof.
  intros Hp. revert shell m pre l tps post. induction uses as [|[l0 us0] uses IH]; intros shell m pre l tps post Hsh; cbn [tower_layers].
  - intros [= <-] H. by destruct pre.
  - rewrite rbind_ok. intros ([sh1 o] & H1 & H). simpl in H. apply rbind_ok in H as (below & Hb & H). injection H as <-.
    pose proof (tower_layer_spec _ _ _ _ _ Hp Hsh H1) as [Hle Ho].
    intros Heq. destruct post as [|x post] using rev_ind.
    + destruct o as [tps0|].
      * apply app_inj_tail in Heq as [-> Heq]. injection Heq as -> ->. destruct Ho as (_ & _ & Hi & _).
        exists (tower_radius t - sh1). split; [done|]. split; [lia|]. intros l' tps' Hin.
        apply elem_of_list_split in Hin as (p1 & p2 & ->).
        destruct (IH sh1 _ _ _ _ _ ltac:(lia) Hb eq_refl) as (a & ? & ? & _). exists a. split; [done|lia].
      * rewrite app_nil_r in Heq. destruct (IH sh1 _ _ _ _ _ ltac:(lia) Hb Heq) as (a & ? & ? & ?).
        exists a. split; [done|]. split; [lia|done].
    + clear IHpost. destruct o as [tps0|].
      * rewrite app_comm_cons, app_assoc in Heq. apply app_inj_tail in Heq as [Heq _].
        destruct (IH sh1 _ _ _ _ _ ltac:(lia) Hb Heq) as (a & ? & ? & ?). exists a. split; [done|]. split; [lia|done].
      * rewrite app_nil_r in Heq. destruct (IH sh1 _ _ _ _ _ ltac:(lia) Hb Heq) as (a & ? & ? & ?).
        exists a. split; [done|]. split; [lia|done].
Qed.

Lemma tower_layers_all t shell uses m :
  positive_widths t → 0 < shell → tower_layers t shell uses = Ok m → map fst m = reverse (map fst uses).
Proof.
  intros Hp. revert shell m. induction uses as [|[l0 us0] uses IH]; intros shell m Hsh; cbn [tower_layers].
  - by intros [= <-].
  - rewrite rbind_ok. intros ([sh1 o] & H1 & H). simpl in H. apply rbind_ok in H as (below & Hb & H). injection H as <-.
    pose proof (tower_layer_spec _ _ _ _ _ Hp (Z.lt_le_incl _ _ Hsh) H1) as [Hle Ho].
    rewrite map_app. simpl. rewrite reverse_cons. rewrite (IH sh1 below); [|lia|done].
    destruct o; [done|lia].
Qed.

Lemma tower_layers_suffix t shell uses m :
  positive_widths t → 0 <= shell → tower_layers t shell uses = Ok m →
  ∃ k, map fst m = reverse (map fst (drop k uses)) ∧
    ∀ l us, (l, us) ∈ take k uses → ∃ sh, tower_layer t 0 us = Ok (sh, None).
Proof.
  intros Hp. revert shell m. induction uses as [|[l0 us0] uses IH]; intros shell m Hsh; cbn [tower_layers].
  - intros [= <-]. exists 0%nat. split; [done|]. intros l us []%not_elem_of_nil.
  - rewrite rbind_ok. intros ([sh1 o] & H1 & H). simpl in H. apply rbind_ok in H as (below & Hb & H). injection H as <-.
    pose proof (tower_layer_spec _ _ _ _ _ Hp Hsh H1) as [Hle Ho].
    destruct o as [tps0|].
    + exists 0%nat. split; [|intros l us []%not_elem_of_nil]. destruct Ho as (Hpos & _).
      rewrite map_app. simpl. rewrite reverse_cons. by rewrite (tower_layers_all _ _ _ _ Hp Hpos Hb).
    + subst sh1. destruct (IH 0 below ltac:(lia) Hb) as (k & Hk1 & Hk2). exists (S k). rewrite app_nil_r. split; [done|].
      intros l us. cbn [take]. intros [Hin|Hin]%elem_of_cons; [|by eapply Hk2]. injection Hin as -> ->.
      exists 0. assert (shell = 0) as -> by lia. done.
Qed.

Lemma tower_toolpaths_in t start uses m l tps :
  positive_widths t → tower_toolpaths t start uses = Ok m → (l, tps) ∈ m →
  ∃ us us' sh sh', (l, us) ∈ uses ∧ (l, us') ∈ polish start uses ∧ primes us' = primes us ∧
    (us ≠ [] → map ex_nr us' = map ex_nr us) ∧ (∃ u, u ∈ us' ∧ ex_prime u ≠ PNone) ∧
    0 <= sh ∧ tower_layer t sh us' = Ok (sh', Some tps).
Proof.
  intros Hp H Hin. unfold tower_toolpaths in H.
  destruct (tower_layers_in _ _ _ _ _ _ Hp (Z.le_refl 0) H Hin) as (us' & sh & sh' & Hus' & Hsh & Hl).
  rewrite elem_of_reverse in Hus'. destruct (polish_layer _ _ _ _ Hus') as (us & Hus & Hpr & Hne & Hsome).
  exists us, us', sh, sh'. done.
Qed.

Lemma primes_in us e : e ∈ primes us ↔ ∃ u, u ∈ us ∧ ex_prime u = PPrime ∧ ex_nr u = e.
Proof.
  unfold primes. rewrite elem_of_list_fmap. split.
  - intros (u & -> & Hu). apply elem_of_list_In, filter_In in Hu as [Hu Hp]. exists u.
    split; [by apply elem_of_list_In|]. by apply bool_decide_eq_true in Hp.
  - intros (u & Hu & Hp & <-). exists u. split; [done|]. apply elem_of_list_In, filter_In.
    split; [by apply elem_of_list_In|]. by apply bool_decide_eq_true.
Qed.

Lemma prime_layer_progress t us next0 sup next tps sup' e :
  positive_widths t → prime_layer_paths t us next0 sup = Ok (next, tps, sup') → next0 <= tower_radius t →
  e ∈ primes us → (0 < required_volume t e)%Q → 2 * (line_width t e ÷ 2) <= tower_radius t → next < tower_radius t.
Proof.
  intros Hp Hpl Hn He Hreq Hfit. revert next0 sup next tps sup' Hpl Hn He.
  induction us as [|u us IH]; intros next0 sup next tps sup'; [intros _ _ He; by apply elem_of_nil in He|].
  intros Hpl Hn He. destruct (decide (next0 = tower_radius t)) as [->|Hne].
  2:{ apply prime_layer_spec in Hpl as (Hle & _); [lia|done]. }
  apply primes_in in He as (v & Hv & Hpv & <-). cbn [prime_layer_paths] in Hpl.
  apply elem_of_cons in Hv as [->|Hv].
  - rewrite Hpv in Hpl. apply rbind_ok in Hpl as ([rs i] & Hrs & H). simpl in H. apply rbind_ok in H as ([[n1 t1] s1] & H & Heq).
    injection Heq as <- <- <-. apply prime_layer_spec in H as (Hle & _); [|done]. simpl in Hle |- *.
    assert (i < tower_radius t); [|lia]. unfold prime_toolpaths in Hrs.
    apply prime_rings_spec in Hrs as (Hi & _ & _ & _ & Hnil); [|apply Hp].
    destruct rs as [|r rs]; [|pose proof (Hp (ex_nr u)); simpl in Hi; nia].
    destruct (Hnil eq_refl) as [Hq|Hr]; [|lia]. exfalso. by apply (Qlt_not_le _ _ Hreq).
  - assert (ex_nr v ∈ primes us) as Hin by (apply primes_in; by exists v).
    destruct (ex_prime u); [by eapply IH|by eapply IH|].
    apply rbind_ok in Hpl as ([rs i] & Hrs & H). simpl in H. apply rbind_ok in H as ([[n1 t1] s1] & H & Heq).
    injection Heq as <- <- <-. simpl. eapply IH; [done| |done]. apply prime_toolpaths_spec in Hrs as [Hle _]; [lia|apply Hp].
Qed.

(** * C40 *)

(** Generating the tower ends, without undefined behaviour. *)
Theorem C40_total t start uses : positive_widths t → ∃ m, tower_toolpaths t start uses = Ok m.
Proof. intros Hp. by apply tower_layers_total. Qed.

(** A layer is filled at least as far inwards as every layer above it. *)
Theorem C40_shell t start uses m pre l' tps' mid l tps post :
  positive_widths t → tower_toolpaths t start uses = Ok m →
  m = pre ++ (l', tps') :: mid ++ (l, tps) :: post →
  ∃ a' a, inner_edge tps' = Some a' ∧ inner_edge tps = Some a ∧ a' <= a.
Proof.
  intros Hp H Heq. rewrite app_comm_cons, app_assoc in Heq.
  destruct (tower_layers_shell _ _ _ _ _ _ _ _ Hp (Z.le_refl 0) H Heq) as (a & Ha & _ & Hpre).
  destruct (Hpre l' tps') as (a' & Ha' & Hle); [apply elem_of_app; right; by left|]. by exists a', a.
Qed.

(** The tower has every layer from the lowest one up to some layer, and reaches every layer on which
    an extruder that needs a positive volume is primed, if a ring fits at all. *)
Theorem C40_contiguous t start uses m :
  positive_widths t → tower_toolpaths t start uses = Ok m →
  map fst m `prefix_of` map fst uses ∧
  (∀ l us e, (l, us) ∈ uses → e ∈ primes us → (0 < required_volume t e)%Q →
     2 * (line_width t e ÷ 2) <= tower_radius t → l ∈ map fst m).
Proof.
  intros Hp H. unfold tower_toolpaths in H.
  destruct (tower_layers_suffix _ _ _ _ Hp (Z.le_refl 0) H) as (k & Hk & Hnone).
  split.
  - rewrite Hk, <-fmap_reverse.
    assert (map fst uses = map fst (reverse (drop k (reverse (polish start uses))) ++ reverse (take k (reverse (polish start uses))))) as ->.
    { rewrite <-reverse_app, take_drop, reverse_involutive. symmetry. apply polish_fst. }
    rewrite map_app. by eexists.
  - intros l us e Hus He Hreq Hfit.
    destruct (polish_covers start _ _ _ Hus) as (us' & Hus' & Hpr).
    rewrite Hk, elem_of_reverse.
    rewrite <-elem_of_reverse in Hus'. rewrite <-(take_drop k (reverse (polish start uses))) in Hus'.
    apply elem_of_app in Hus' as [Hin|Hin]; [|apply elem_of_list_fmap; by exists (l, us')].
    exfalso. destruct (Hnone _ _ Hin) as (sh & Hl). rewrite <-Hpr in He.
    unfold tower_layer in Hl. apply rbind_ok in Hl as ([[next tps] sup] & Hpl & Hl). simpl in Hl.
    pose proof (prime_layer_progress _ _ _ _ _ _ _ _ Hp Hpl (Z.le_refl _) He Hreq Hfit) as Hlt.
    rewrite (proj2 (Z.ltb_lt 0 _)) in Hl by lia.
    destruct (_ <? next); [|done]. destruct tps as [|tp0 tps0].
    + simpl in Hl. apply rbind_ok in Hl as (? & _ & ?). done.
    + destruct (last (tp0 :: tps0)); [|done]. apply rbind_ok in Hl as (? & _ & ?). done.
Qed.

(** The lines of a layer lie between the edge of the tower and the inner edge of the layer, and do
    not overlap, whichever extruders print them. *)
Theorem C40_disjoint t start uses m l tps :
  positive_widths t → tower_toolpaths t start uses = Ok m → (l, tps) ∈ m →
  ∃ a, inner_edge tps = Some a ∧ a < tower_radius t ∧ a <= tower_radius t - min_shell t ∧
    within a (tower_radius t) (bands t tps) ∧ disjoint (bands t tps).
Proof.
  intros Hp H Hin.
  destruct (tower_toolpaths_in _ _ _ _ _ _ Hp H Hin) as (us & us' & sh & sh' & _ & _ & _ & _ & _ & Hsh & Hl).
  apply tower_layer_spec in Hl as (_ & Hpos & Hmin & Hi & [Hw Hd] & _); [|done..].
  exists (tower_radius t - sh'). split; [done|]. split; [lia|]. split; [lia|]. done.
Qed.

(** Every extruder that is primed on a layer gets its volume, or there is no room for another ring. *)
Theorem C40_volume t start uses m l us tps e :
  positive_widths t → tower_toolpaths t start uses = Ok m → NoDup (map fst uses) →
  (l, us) ∈ uses → (l, tps) ∈ m → e ∈ primes us →
  ∃ tp rs rest, tp ∈ tps ∧ tp_extruder tp = e ∧ tp_lines tp = map Circle rs ++ rest ∧
    ((required_volume t e <= rings_volume t e rs)%Q ∨
     ∃ a, inner_edge tps = Some a ∧ a < 2 * (line_width t e ÷ 2)).
Proof.
  intros Hp H HN Hus Hin He.
  destruct (tower_toolpaths_in _ _ _ _ _ _ Hp H Hin) as (us1 & us' & sh & sh' & Hus1 & _ & Hpr & _ & _ & Hsh & Hl).
  assert (us1 = us) as ->.
  { apply elem_of_list_lookup in Hus as (i & Hi), Hus1 as (j & Hj).
    assert (i = j) as ->; [|congruence]. eapply (NoDup_lookup (map fst uses) i j l); [done|..].
    - by rewrite list_lookup_fmap, Hi.
    - by rewrite list_lookup_fmap, Hj. }
  rewrite <-Hpr in He. apply primes_in in He as (u & Hu & Hpu & <-).
  apply tower_layer_spec in Hl as (_ & _ & _ & Hi & _ & _ & _ & Hvol & _); [|done..].
  destruct (Hvol u Hu Hpu) as (tp & rs & ls & ? & ? & ? & Hor). exists tp, rs, ls. split; [done|]. split; [done|]. split; [done|].
  destruct Hor as [?|?]; [by left|right]. by eexists.
Qed.

(** The extruders that print a layer of the tower are planned on the layer; on a layer without any
    extruder it is one that polishing has added. *)
Theorem C40_extruders t start uses m l tps tp :
  positive_widths t → tower_toolpaths t start uses = Ok m → (l, tps) ∈ m → tp ∈ tps →
  ∃ us us', (l, us) ∈ uses ∧ (l, us') ∈ polish start uses ∧ tp_extruder tp ∈ map ex_nr us' ∧
    (us ≠ [] → tp_extruder tp ∈ map ex_nr us).
Proof.
  intros Hp H Hin Htp.
  destruct (tower_toolpaths_in _ _ _ _ _ _ Hp H Hin) as (us & us' & sh & sh' & Hus & Hus' & Hpr & Hne & Hsome & Hsh & Hl).
  apply tower_layer_spec in Hl as (_ & _ & _ & _ & _ & Hex & _); [|done..].
  specialize (Hex Hsome tp Htp). exists us, us'. split; [done|]. split; [done|]. split; [done|].
  intros Hn. by rewrite <-Hne.
Qed.

(** Every layer of the tower has a line to print, if no line is wider than its shell. *)
Theorem C40_printed t start uses m l tps a :
  positive_widths t → tower_toolpaths t start uses = Ok m → (l, tps) ∈ m →
  inner_edge tps = Some a → (∀ e, line_width t e <= tower_radius t - a) → bands t tps ≠ [].
Proof.
  intros Hp H Hin Ha Hw.
  destruct (tower_toolpaths_in _ _ _ _ _ _ Hp H Hin) as (us & us' & sh & sh' & _ & _ & _ & _ & _ & Hsh & Hl).
  apply tower_layer_spec in Hl as (_ & _ & _ & Hi & _ & _ & _ & _ & Hne); [|done..].
  apply Hne. intros e. specialize (Hw e). assert (a = tower_radius t - sh') by congruence. lia.
Qed.

(** ** The base and the disc on the first layer *)

Lemma circular_outset_spec fuel r outer lw rs :
  0 < lw → circular_outset fuel r outer lw = Ok rs →
  stacked (r - lw ÷ 2) outer (map (band lw) (map Circle rs)).
Proof.
  intros Hlw. pose proof (semi_bounds _ Hlw) as Hs. set (semi := lw ÷ 2) in *.
  revert r rs. induction fuel as [|fuel IH]; intros r rs; cbn [circular_outset]; [done|]. fold semi.
  destruct (r + semi <=? outer) eqn:E; [|intros [= <-]; apply stacked_nil].
  rewrite rbind_ok. intros (rest & Hrest & Heq). injection Heq as <-. apply Z.leb_le in E.
  specialize (IH _ _ Hrest). cbn [map]. change (band lw (Circle r) :: ?l) with ([band lw (Circle r)] ++ l).
  apply (stacked_app_r _ (r + semi)); [lia| |].
  - eapply stacked_widen; [| |exact IH]; lia.
  - apply stacked_singleton; simpl; fold semi; lia.
Qed.

Lemma circular_outset_total fuel r outer lw :
  0 < lw → outer - r + 1 < Z.of_nat fuel → (0 < fuel)%nat → ∃ rs, circular_outset fuel r outer lw = Ok rs.
Proof.
  intros Hlw. pose proof (semi_bounds _ Hlw) as Hs.
  revert r. induction fuel as [|fuel IH]; intros r Hf H0; [lia|]. cbn [circular_outset].
  destruct (r + lw ÷ 2 <=? outer) eqn:E; [|by eexists]. apply Z.leb_le in E.
  destruct (IH (r + lw)) as (rs & ->); [lia|lia|]. by eexists.
Qed.

Lemma circular_inset_spec fuel r lw rs :
  0 < lw → circular_inset fuel r lw = Ok rs →
  stacked 0 (r + lw ÷ 2) (map (band lw) (map Circle rs)).
Proof.
  intros Hlw. pose proof (semi_bounds _ Hlw) as Hs. set (semi := lw ÷ 2) in *.
  revert r rs. induction fuel as [|fuel IH]; intros r rs; cbn [circular_inset]; [done|]. fold semi.
  destruct (lw <=? r - semi) eqn:E; [|intros [= <-]; apply stacked_nil].
  rewrite rbind_ok. intros (rest & Hrest & Heq). injection Heq as <-. apply Z.leb_le in E.
  specialize (IH _ _ Hrest). cbn [map]. change (band lw (Circle r) :: ?l) with ([band lw (Circle r)] ++ l).
  apply (stacked_app _ (r - semi)); [lia| |].
  - apply stacked_singleton; simpl; fold semi; lia.
  - eapply stacked_widen; [| |exact IH]; lia.
Qed.

Lemma circular_inset_total fuel r lw :
  0 < lw → r < Z.of_nat fuel → (0 < fuel)%nat → ∃ rs, circular_inset fuel r lw = Ok rs.
Proof.
  intros Hlw. pose proof (semi_bounds _ Hlw) as Hs.
  revert r. induction fuel as [|fuel IH]; intros r Hf H0; [lia|]. cbn [circular_inset].
  destruct (lw <=? r - lw ÷ 2) eqn:E; [|by eexists]. apply Z.leb_le in E.
  destruct (IH (r - lw)) as (rs & ->); [lia|lia|]. by eexists.
Qed.

(** The rings of the base lie around the tower, inside the base, and overlap neither each other nor
    the layer, if the number of extruders primed on the layer is not one. *)
Theorem C40_base t start uses m l us tps tp base :
  positive_widths t → tower_toolpaths t start uses = Ok m → NoDup (map fst uses) →
  (l, us) ∈ uses → (l, tps) ∈ m → head tps = Some tp → length (primes us) ≠ 1%nat →
  ∃ rs, base_rings t tps base = Ok rs ∧
    within (tower_radius t) base (map (λ r, band (line_width t (tp_extruder tp)) (Circle r)) rs) ∧
    disjoint (map (λ r, band (line_width t (tp_extruder tp)) (Circle r)) rs ++ bands t tps).
Proof.
  intros Hp H HN Hus Hin Hh Hone.
  destruct (tower_toolpaths_in _ _ _ _ _ _ Hp H Hin) as (us1 & us' & sh & sh' & Hus1 & _ & Hpr & _ & _ & Hsh & Hl).
  assert (us1 = us) as ->.
  { apply elem_of_list_lookup in Hus as (i & Hi), Hus1 as (j & Hj).
    assert (i = j) as ->; [|congruence]. eapply (NoDup_lookup (map fst uses) i j l); [done|..].
    - by rewrite list_lookup_fmap, Hi.
    - by rewrite list_lookup_fmap, Hj. }
  rewrite <-Hpr in Hone. unfold primes in Hone. rewrite map_length in Hone.
  apply tower_layer_spec in Hl as (_ & Hpos & _ & _ & Hst & _ & Hout & _); [|done..].
  specialize (Hout Hone). rewrite Hh in Hout. simpl in Hout. injection Hout as Hout.
  unfold base_rings. destruct tps as [|tp' tps]; [done|]. simpl in Hh. injection Hh as ->. rewrite Hout.
  pose proof (Hp (tp_extruder tp)) as Hlw. pose proof (semi_bounds _ Hlw) as Hs.
  destruct (circular_outset_total (Z.to_nat (base - tower_radius t) + 2) (tower_radius t + line_width t (tp_extruder tp) ÷ 2) base (line_width t (tp_extruder tp)))
    as (rs & Hrs); [done|lia|lia|]. exists rs. split; [done|].
  apply circular_outset_spec in Hrs; [|done].
  replace (tower_radius t + line_width t (tp_extruder tp) ÷ 2 - line_width t (tp_extruder tp) ÷ 2) with (tower_radius t) in Hrs by lia.
  rewrite map_map in Hrs. split; [exact (proj1 Hrs)|].
  destruct (decide (tower_radius t <= base)).
  - eapply (stacked_app (tower_radius t - sh') (tower_radius t) base); [lia|exact Hrs|exact Hst].
  - assert (rs = []) as ->.
    { destruct rs as [|r rs]; [done|]. destruct (proj1 Hrs _ ltac:(by left)) as (?&?&?). lia. }
    apply Hst.
Qed.

(** The disc on the first layer lies inside the layer's inner edge. *)
Theorem C40_inset t start uses m l tps tp :
  positive_widths t → tower_toolpaths t start uses = Ok m → (l, tps) ∈ m → last tps = Some tp →
  ∃ rs a, inset_rings t tps = Ok rs ∧ inner_edge tps = Some a ∧
    within 0 a (map (λ r, band (line_width t (tp_extruder tp)) (Circle r)) rs) ∧
    disjoint (bands t tps ++ map (λ r, band (line_width t (tp_extruder tp)) (Circle r)) rs).
Proof.
  intros Hp H Hin Hlast. destruct (C40_disjoint _ _ _ _ _ _ Hp H Hin) as (a & Ha & Har & _ & Hst).
  unfold inset_rings. rewrite Hlast.
  pose proof (Hp (tp_extruder tp)) as Hlw. pose proof (semi_bounds _ Hlw) as Hs.
  assert (tp_inner tp = a) as -> by (unfold inner_edge in Ha; rewrite Hlast in Ha; simpl in Ha; congruence).
  destruct (circular_inset_total (Z.to_nat a + 2) (a - line_width t (tp_extruder tp) ÷ 2) (line_width t (tp_extruder tp)))
    as (rs & Hrs); [done|lia|lia|]. exists rs, a. split; [done|]. split; [done|].
  apply circular_inset_spec in Hrs; [|done].
  replace (a - line_width t (tp_extruder tp) ÷ 2 + line_width t (tp_extruder tp) ÷ 2) with a in Hrs by lia.
  rewrite map_map in Hrs. split; [exact (proj1 Hrs)|].
  destruct (decide (0 <= a)).
  - eapply (stacked_app 0 a (tower_radius t)); [lia|exact Hst|exact Hrs].
  - assert (rs = []) as ->.
    { destruct rs as [|r rs]; [done|]. destruct (proj1 Hrs _ ltac:(by left)) as (?&?&?). lia. }
    simpl. rewrite app_nil_r. apply Hst.
Qed.

(** * Examples *)

Definition small_tower : tower_settings :=
  {| tower_radius := 10000; tower_layer_height := 200; min_shell := 1000;
     line_width := λ e, if decide (e = 0)%nat then 400 else 350;
     required_volume := λ _, (6000000000 # 1)%Q; tower_flow := λ _, 1%Q; max_bridging := λ _, 500;
     circle_length := λ r, 6 * r |}.

(** Two extruders over four layers: extruder 1 is primed on layer 0, both are on layer 2, nothing
    happens on layers 1 and 3. *)
Definition small_uses : list (Z * list extruder_use) :=
  [(0, [Use 0 PNone; Use 1 PPrime]); (1, []); (2, [Use 1 PPrime; Use 0 PPrime]); (3, [Use 0 PNone])].

Example C40_example :
  positive_widths small_tower ∧ NoDup (map fst small_uses) ∧
  ∃ m tps, tower_toolpaths small_tower 0 small_uses = Ok m ∧ map fst m = [0; 1; 2] ∧ m !! 2%nat = Some (2, tps) ∧
    map tp_extruder tps = [1; 0]%nat ∧ (3 <= length (bands small_tower tps))%nat ∧ inner_edge tps = Some 8500 ∧
    (∀ tps', (1, tps') ∈ m → ∀ e, line_width small_tower e <= tower_radius small_tower - 8500).
Proof.
  split; [intros e; simpl; by destruct (decide _)|]. split; [by apply (bool_decide_unpack _)|].
  eexists _, _. split; [vm_compute; reflexivity|]. split; [reflexivity|]. split; [reflexivity|].
  split; [reflexivity|]. split; [vm_compute; lia|]. split; [reflexivity|].
  intros tps' _ e. simpl. destruct (decide _); lia.
Qed.

(** Without the condition on the line widths a layer of the tower may stay empty, although a layer
    above it is printed: the shell is as thick as the one ring of the upper layer, and too thin for
    the wider line of the extruder that prints the layer below. *)
Theorem C40_printed_refuted :
  ∃ t start uses m l tps l' tps', positive_widths t ∧ tower_toolpaths t start uses = Ok m ∧
    (l, tps) ∈ m ∧ (l', tps') ∈ m ∧ l < l' ∧ bands t tps = [] ∧ bands t tps' ≠ [].
Proof.
  exists {| tower_radius := 10000; tower_layer_height := 200; min_shell := 0;
     line_width := λ e, if decide (e = 0)%nat then 400 else 350;
     required_volume := λ _, (1000000000 # 1)%Q; tower_flow := λ _, 1%Q; max_bridging := λ _, 500;
     circle_length := λ r, 6 * r |}, 0%nat, [(0, [Use 0 PNone]); (1, [Use 0 PNone; Use 1 PPrime])].
  eexists _, 0, _, 1, _. split; [intros e; simpl; by destruct (decide _)|].
  split; [vm_compute; reflexivity|]. split; [by left|]. split; [right; by left|]. done.
Qed.

(** On a layer with exactly one primed extruder, the rings of the base may overlap the rings of the
    tower: the outer radius of its tool path has been replaced by that of the support part. *)
Theorem C40_base_refuted :
  ∃ m tps rs, tower_toolpaths small_tower 0 small_uses = Ok m ∧ m !! 0%nat = Some (0, tps) ∧
    base_rings small_tower tps 14000 = Ok rs ∧
    ∃ r b, r ∈ rs ∧ b ∈ bands small_tower tps ∧ band (line_width small_tower 1) (Circle r) = b.
Proof.
  eexists _, _, _. split; [vm_compute; reflexivity|]. split; [reflexivity|]. split; [vm_compute; reflexivity|].
  exists 9475, (9300, 9650). split; [left|]. split; [|done]. right. by left.
Qed.

Print Assumptions C40_total.
Print Assumptions C40_shell.
Print Assumptions C40_contiguous.
Print Assumptions C40_disjoint.
Print Assumptions C40_volume.
Print Assumptions C40_extruders.
Print Assumptions C40_printed.
Print Assumptions C40_printed_refuted.
Print Assumptions C40_base.
Print Assumptions C40_base_refuted.
Print Assumptions C40_inset.
