(** Model of the strategies that spread walls over a thickness: src/BeadingStrategy/*.cpp.
    Doubles, floats and Ratios are exact rationals; coord_t is Z.  Log messages are left out. *)
From Coq Require Import QArith Qround Lqa.
From stdpp Require Import list strings.
From Verif Require Import Common Wall_Model.
Open Scope Z_scope.

(** include/BeadingStrategy/BeadingStrategy.h:30-36 Beading.  [left_over] is None where the code leaves it without a value. *)
Record beading := Beading { total_thickness : Z; bead_widths : list Z; toolpath_locations : list Z; left_over : option Z }.

(** The strategies.  The base class of each meta strategy is a copy of that of its parent (the constructors call
    BeadingStrategy( *parent)), so the optimal width and the thresholds are those of the Distributed one at the bottom.
    Transition lengths and angles are left out. *)
Inductive strategy :=
| Distributed (optimal_width : Z) (wall_split_middle_threshold wall_add_middle_threshold : Q) (distribution_radius : Z)
| Redistribute (optimal_width_outer : Z) (minimum_variable_line_ratio : Q) (parent : strategy)
| Widening (parent : strategy) (min_input_width min_output_width : Z)
| OuterWallInset (outer_wall_offset : Z) (parent : strategy)
| InnerWallInset (inner_wall_offset : Z) (parent : strategy)
| Limited (max_bead_count : Z) (parent : strategy).

(** BeadingStrategy.cpp:68-81 *)
Fixpoint optimal_width (s : strategy) : Z :=
  match s with
  | Distributed w _ _ _ => w
  | Redistribute _ _ p | Widening p _ _ | OuterWallInset _ p | InnerWallInset _ p | Limited _ p => optimal_width p
  end.
Fixpoint getSplitMiddleThreshold (s : strategy) : Q :=
  match s with
  | Distributed _ t _ _ => t
  | Redistribute _ _ p | Widening p _ _ | OuterWallInset _ p | InnerWallInset _ p | Limited _ p => getSplitMiddleThreshold p
  end.

(** BeadingStrategy.cpp:88-91; RedistributeBeadingStrategy.cpp:21-26; WideningBeadingStrategy.cpp:46-49;
    OuterWallInsetBeadingStrategy.cpp:20-23; InnerWallInsetBeadingStrategy.cpp:20-23; LimitedBeadingStrategy.cpp:96-103 *)
Fixpoint getOptimalThickness (s : strategy) (bead_count : Z) : Z :=
  match s with
  | Distributed w _ _ _ => w * bead_count
  | Redistribute outer _ p =>
      let inner_bead_count := Z.max 0 (bead_count - 2) in
      let outer_bead_count := bead_count - inner_bead_count in
      getOptimalThickness p inner_bead_count + outer * outer_bead_count
  | Widening p _ _ | OuterWallInset _ p | InnerWallInset _ p => getOptimalThickness p bead_count
  | Limited m p => if bead_count <=? m then getOptimalThickness p bead_count else 10000000
  end.

(** BeadingStrategy.cpp:93-99; RedistributeBeadingStrategy.cpp:28-39; WideningBeadingStrategy.cpp:51-61;
    OuterWallInsetBeadingStrategy.cpp:25-28; InnerWallInsetBeadingStrategy.cpp:25-28; LimitedBeadingStrategy.cpp:105-116 *)
Fixpoint getTransitionThickness (s : strategy) (lower_bead_count : Z) : Z :=
  match s with
  | Distributed w split add _ =>
      let lower_ideal_width := w * lower_bead_count in
      let higher_ideal_width := w * (lower_bead_count + 1) in
      let threshold := if Z.rem lower_bead_count 2 =? 1 then split else add in
      qtrunc (inject_Z lower_ideal_width + threshold * inject_Z (higher_ideal_width - lower_ideal_width))
  | Redistribute outer ratio p =>
      if lower_bead_count =? 0 then qtrunc (ratio * inject_Z outer)
      else if lower_bead_count =? 1 then qtrunc ((1 + getSplitMiddleThreshold p) * inject_Z outer)
      else getTransitionThickness p (lower_bead_count - 2) + 2 * outer
  | Widening p min_input _ => if lower_bead_count =? 0 then min_input else getTransitionThickness p lower_bead_count
  | OuterWallInset _ p | InnerWallInset _ p => getTransitionThickness p lower_bead_count
  | Limited m p =>
      if lower_bead_count <? m then getTransitionThickness p lower_bead_count
      else if lower_bead_count =? m then getOptimalThickness p (lower_bead_count + 1) - 10
      else 9000000
  end.

Definition Qltb (a b : Q) : bool := negb (Qle_bool b a).
(** DistributedBeadingStrategy.cpp:95-101 (a width of zero would be a division by zero); RedistributeBeadingStrategy.cpp:41-52;
    WideningBeadingStrategy.cpp:63-71; OuterWallInsetBeadingStrategy.cpp:30-33; InnerWallInsetBeadingStrategy.cpp:30-33;
    LimitedBeadingStrategy.cpp:118-133 *)
Fixpoint getOptimalBeadCount (s : strategy) (thickness : Z) : res Z :=
  match s with
  | Distributed w split add _ =>
      if w =? 0 then UB else
      let naive_count := thickness ÷ w in
      let remainder := thickness - naive_count * w in
      let minimum_line_width := qtrunc (inject_Z w * (if Z.rem naive_count 2 =? 1 then split else add)) in
      Ok (naive_count + (if minimum_line_width <=? remainder then 1 else 0))
  | Redistribute outer ratio p =>
      if Qltb (inject_Z thickness) (ratio * inject_Z outer) then Ok 0
      else if thickness <=? 2 * outer
      then Ok (if Qltb ((1 + getSplitMiddleThreshold p) * inject_Z outer) (inject_Z thickness) then 2 else 1)
      else let! n := getOptimalBeadCount p (thickness - 2 * outer) in Ok (n + 2)
  | Widening p min_input _ =>
      if thickness <? min_input then Ok 0
      else let! ret := getOptimalBeadCount p thickness in
           if (min_input <=? thickness) && (ret <? 1) then Ok 1 else Ok ret
  | OuterWallInset _ p | InnerWallInset _ p => getOptimalBeadCount p thickness
  | Limited m p =>
      let! parent_bead_count := getOptimalBeadCount p thickness in
      if parent_bead_count <=? m then Ok parent_bead_count
      else if parent_bead_count =? m + 1
      then if thickness <? getOptimalThickness p (m + 1) - 10 then Ok m else Ok (m + 1)
      else Ok (m + 1)
  end.

(** DistributedBeadingStrategy.cpp:19-26: one_over_distribution_radius_squared_ *)
Definition one_over_squared (distribution_radius : Z) : Q :=
  if 2 <=? distribution_radius
  then 1 / inject_Z (distribution_radius - 1) * 1 / inject_Z (distribution_radius - 1)
  else 1.
(** DistributedBeadingStrategy.cpp:38-44 *)
Definition weight (k middle : Q) (bead_idx : Z) : Q :=
  let dev_from_middle := (inject_Z bead_idx - middle)%Q in
  let v := (1 - k * dev_from_middle * dev_from_middle)%Q in
  if Qle_bool v 0 then 0%Q else v.
(** DistributedBeadingStrategy.cpp:54-69: the widths, and the locations that follow from the width and the location before *)
Definition bead_width (w to_be_divided : Z) (total_weight wt : Q) : Z := w + qtrunc (inject_Z to_be_divided * (wt / total_weight)).
Fixpoint locations_from (location width : Z) (widths : list Z) : list Z :=
  match widths with
  | [] => []
  | w :: widths' => let l := location + (width + w) ÷ 2 in l :: locations_from l w widths'
  end.
Definition locations (widths : list Z) : list Z :=
  match widths with [] => [] | w :: widths' => w ÷ 2 :: locations_from (w ÷ 2) w widths' end.
(** DistributedBeadingStrategy.cpp:31-93 (a total weight of zero would be a division by zero) *)
Definition compute_distributed (w radius thickness bead_count : Z) : res beading :=
  if 2 <? bead_count then
    let to_be_divided := thickness - bead_count * w in
    let middle := (inject_Z (bead_count - 1) / 2)%Q in
    let weights := map (fun i => weight (one_over_squared radius) middle (Z.of_nat i)) (seq 0 (Z.to_nat bead_count)) in
    let total_weight := foldl Qplus 0%Q weights in
    if Qeq_bool total_weight 0 then UB else
    let widths := map (bead_width w to_be_divided total_weight) weights in
    Ok (Beading thickness widths (locations widths) (Some 0))
  else if bead_count =? 2 then
    let outer_width := thickness ÷ 2 in
    Ok (Beading thickness [outer_width; outer_width] [outer_width ÷ 2; thickness - outer_width ÷ 2] (Some 0))
  else if bead_count =? 1 then Ok (Beading thickness [thickness] [thickness ÷ 2] (Some 0))
  else Ok (Beading thickness [] [] (Some thickness)).

Definition total (l : list Z) : Z := foldr Z.add 0 l.
(** std::vector::insert at an index *)
Definition insert_at (i : Z) (x : Z) (l : list Z) : res (list Z) :=
  if (0 <=? i) && (i <=? Z.of_nat (length l)) then Ok (take (Z.to_nat i) l ++ x :: drop (Z.to_nat i) l) else UB.
(** std::vector::operator[] with an index out of range is undefined *)
Definition at_ (l : list Z) (i : Z) : res Z := if 0 <=? i then of_opt (l !! Z.to_nat i) else UB.
Definition set_at (l : list Z) (i x : Z) : res (list Z) :=
  if (0 <=? i) && (i <? Z.of_nat (length l)) then Ok (<[Z.to_nat i := x]> l) else UB.
(** LimitedBeadingStrategy.cpp:73-76 *)
Fixpoint mirror (thickness n : Z) (idxs : list Z) (l : list Z) : res (list Z) :=
  match idxs with
  | [] => Ok l
  | i :: idxs' =>
      let! x := at_ l i in
      let! l' := set_at l (n - 1 - i) (thickness - x) in
      mirror thickness n idxs' l'
  end.
Definition count_positive (l : list Z) : nat := length (filter (fun w => 0 < w) l).

(** RedistributeBeadingStrategy.cpp:69-107; WideningBeadingStrategy.cpp:22-44; OuterWallInsetBeadingStrategy.cpp:44-66;
    InnerWallInsetBeadingStrategy.cpp:46-71; LimitedBeadingStrategy.cpp:38-94 (as in a release build, without the assert) *)
Fixpoint compute (s : strategy) (thickness bead_count : Z) : res beading :=
  match s with
  | Distributed w _ _ radius => compute_distributed w radius thickness bead_count
  | Redistribute outer ratio p =>
      if (bead_count =? 0) || Qltb (inject_Z thickness) (ratio * inject_Z outer)
      then Ok (Beading thickness [] [] (Some thickness))
      else
        let inner_bead_count := bead_count - 2 in
        let inner_thickness := thickness - 2 * outer in
        let! inner :=
          if (0 <? inner_bead_count) && (0 <? inner_thickness)
          then let! r := compute p inner_thickness inner_bead_count in
               Ok (bead_widths r, map (fun l => l + outer) (toolpath_locations r))
          else Ok ([], []) in
        let actual_outer_thickness := if 2 <? bead_count then Z.min (thickness ÷ 2) outer else thickness ÷ bead_count in
        let widths := actual_outer_thickness :: inner.1 in
        let locs := actual_outer_thickness ÷ 2 :: inner.2 in
        let widths := if 1 <? bead_count then widths ++ [actual_outer_thickness] else widths in
        let locs := if 1 <? bead_count then locs ++ [thickness - actual_outer_thickness ÷ 2] else locs in
        Ok (Beading thickness widths locs (Some (thickness - total widths)))
  | Widening p min_input min_output =>
      if thickness <? optimal_width p then
        if min_input <=? thickness then Ok (Beading thickness [Z.max thickness min_output] [thickness ÷ 2] None)
        else Ok (Beading thickness [] [] (Some thickness))
      else compute p thickness bead_count
  | OuterWallInset offset p =>
      let! ret := compute p thickness bead_count in
      if (count_positive (bead_widths ret) <? 2)%nat then Ok ret else
      let! l := at_ (toolpath_locations ret) 0 in
      let! locs := set_at (toolpath_locations ret) 0 (Z.min (l + offset) (thickness ÷ 2)) in
      Ok (Beading (total_thickness ret) (bead_widths ret) locs (left_over ret))
  | InnerWallInset offset p =>
      let! ret := compute p thickness bead_count in
      if (count_positive (bead_widths ret) <? 2)%nat then Ok ret else
      Ok (Beading (total_thickness ret) (bead_widths ret)
            (take 1 (toolpath_locations ret) ++ map (fun l => l + offset) (drop 1 (toolpath_locations ret))) (left_over ret))
  | Limited m p =>
      if bead_count <=? m then
        let! ret := compute p thickness bead_count in
        let bead_count := Z.of_nat (length (toolpath_locations ret)) in
        if (Z.rem bead_count 2 =? 0) && (bead_count =? m) then
          let! l := at_ (toolpath_locations ret) (m ÷ 2 - 1) in
          let! w := at_ (bead_widths ret) (m ÷ 2 - 1) in
          let! locs := insert_at (m ÷ 2) (l + w ÷ 2) (toolpath_locations ret) in
          let! widths := insert_at (m ÷ 2) 0 (bead_widths ret) in
          Ok (Beading (total_thickness ret) widths locs (left_over ret))
        else Ok ret
      else
        let optimal_thickness := getOptimalThickness p m in
        let! ret := compute p optimal_thickness m in
        let bead_count := Z.of_nat (length (toolpath_locations ret)) in
        let! lo := of_opt (left_over ret) in
        let lo := lo + (thickness - total_thickness ret) in
        let! r1 :=
          if Z.rem bead_count 2 =? 1 then
            let! locs := set_at (toolpath_locations ret) (bead_count ÷ 2) (thickness ÷ 2) in
            let! widths := set_at (bead_widths ret) (bead_count ÷ 2) (thickness - optimal_thickness) in
            Ok (locs, widths)
          else Ok (toolpath_locations ret, bead_widths ret) in
        let! locs := mirror thickness bead_count (map Z.of_nat (seq 0 (Z.to_nat ((bead_count + 1) ÷ 2)))) r1.1 in
        let! l := at_ locs (m ÷ 2 - 1) in
        let! w := at_ r1.2 (m ÷ 2 - 1) in
        let! locs := insert_at (m ÷ 2) (l + w ÷ 2) locs in
        let! widths := insert_at (m ÷ 2) 0 r1.2 in
        let opposite_bead := bead_count - (m ÷ 2 - 1) in
        let! l := at_ locs opposite_bead in
        let! w := at_ widths opposite_bead in
        let! locs := insert_at opposite_bead (l - w ÷ 2) locs in
        let! widths := insert_at opposite_bead 0 widths in
        Ok (Beading thickness widths locs (Some lo))
  end.

(** BeadingStrategy.cpp:53-56; WideningBeadingStrategy.cpp:83-90.  The other strategies do not override it. *)
Fixpoint getNonlinearThicknesses (s : strategy) (lower_bead_count : Z) : list Z :=
  match s with
  | Widening p _ min_output => min_output :: getNonlinearThicknesses p lower_bead_count
  | _ => []
  end.

(** BeadingStrategy.cpp:58-61; RedistributeBeadingStrategy.cpp:64-67, which calls itself; WideningBeadingStrategy.cpp:17-20;
    OuterWallInsetBeadingStrategy.cpp:39-42; InnerWallInsetBeadingStrategy.cpp:41-44; LimitedBeadingStrategy.cpp:13-16.
    The fuel bounds the depth of the calls. *)
Fixpoint toString (fuel : nat) (s : strategy) : res string :=
  match fuel with
  | O => NoFuel
  | S fuel' =>
      let prepend (a : string) p := let! b := toString fuel' p in Ok (a +:+ b)%string in
      match s with
      | Distributed _ _ _ _ => Ok "DistributedBeadingStrategy"%string
      | Redistribute _ _ p => let! a := toString fuel' s in prepend a p
      | Widening p _ _ => prepend "Widening+"%string p
      | OuterWallInset _ p => prepend "OuterWallOfsetBeadingStrategy+"%string p
      | InnerWallInset _ p => prepend "InnerWallInsetBeadingStrategy+"%string p
      | Limited _ p => prepend "LimitedBeadingStrategy+"%string p
      end
  end.

(** The parameters of BeadingStrategyFactory::makeStrategy *)
Record parameters := Parameters {
  preferred_bead_width_outer : Z; preferred_bead_width_inner : Z; print_thin_walls : bool;
  min_bead_width : Z; min_feature_size : Z; wall_split_middle_threshold : Q; wall_add_middle_threshold : Q;
  max_bead_count : Z; outer_wall_offset : Z; inner_wall_offset : Z; inward_distributed_center_wall_count : Z;
  minimum_variable_line_ratio : Q }.
(** BeadingStrategyFactory.cpp:20-67 *)
Definition makeStrategy (P : parameters) : strategy :=
  let ret := Distributed (preferred_bead_width_inner P) (wall_split_middle_threshold P) (wall_add_middle_threshold P)
               (inward_distributed_center_wall_count P) in
  let ret := Redistribute (preferred_bead_width_outer P) (minimum_variable_line_ratio P) ret in
  let ret := if print_thin_walls P then Widening ret (min_feature_size P) (min_bead_width P) else ret in
  let ret := if 0 <? outer_wall_offset P then OuterWallInset (outer_wall_offset P) ret else ret in
  let ret := if negb (inner_wall_offset P =? 0) then InnerWallInset (inner_wall_offset P) ret else ret in
  Limited (max_bead_count P) ret.
