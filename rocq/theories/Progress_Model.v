(** C46: the progress reports.  Doubles are exact rationals, with infinities and not-a-number for divisions by zero. *)
From Coq Require Import ZArith QArith Qround Qminmax String.
From stdpp Require Import list list_numbers.
Local Open Scope Q_scope.

(** The stages (Progress.h:33-43) are the numbers 0 to 7. *)
Definition SPLIT := 1%nat. Definition SLICING := 2%nat. Definition PARTS := 3%nat. Definition INSET_SKIN := 4%nat.
Definition SUPPORT := 5%nat. Definition EXPORT := 6%nat. Definition FINISH := 7%nat.

(** Progress::times (Progress.h:46-55). *)
Definition times : list Q := [0; 50; 5269 # 1000; 1533 # 1000; 71811 # 1000; 51009 # 1000; 15462 # 100; 1 # 10].
Definition stage_time (s : nat) : Q := nth s times 0.

(** Progress::init (Progress.cpp:29-38): the accumulated times, and the total. *)
Fixpoint accumulate (acc : Q) (ts : list Q) : list Q * Q :=
  match ts with
  | [] => ([], acc)
  | t :: ts => let r := accumulate (acc + t) ts in (acc :: r.1, r.2)
  end.
Definition accumulated_time (s : nat) : Q := nth s (accumulate 0 times).1 0.
Definition total_timing : Q := (accumulate 0 times).2.

(** A double. *)
Inductive double := Fin (q : Q) | PosInf | NegInf | NaN.

(** Division of two integers as doubles. *)
Definition divide (a b : Z) : double :=
  if (b =? 0)%Z then (if (0 <? a)%Z then PosInf else if (a <? 0)%Z then NegInf else NaN) else Fin (inject_Z a / inject_Z b).

(** std::clamp(x, 0.0, 1.0) (Progress.cpp:25). *)
Definition clamp (x : double) : double :=
  match x with
  | Fin q => Fin (if Qle_bool 0 q then if Qle_bool q 1 then q else 1 else 0)
  | PosInf => Fin 1 | NegInf => Fin 0 | NaN => NaN
  end.

(** Progress::calcOverallProgress (Progress.cpp:23-27).  [None]: not a number. *)
Definition overall (stage : nat) (p : double) : option Q :=
  match clamp p with
  | Fin q => Some ((accumulated_time stage + q * stage_time stage) / total_timing)
  | _ => None
  end.

(** A call of Progress::messageProgress, and what it sends (Progress.cpp:40-44). *)
Record report := Report { stage : nat; progress : Z; max : Z }.
Definition sent (r : report) : option Q := overall (stage r) (divide (progress r) (max r)).

(** ** Estimators *)

(** ProgressStageEstimator (ProgressStageEstimator.h, .cpp:11-22). *)
Record estimator := Est { stages : list Q; total_estimated : Q; accumulated : Q; current : Z }.
Definition new_estimator (ts : list Q) : estimator := Est ts (fold_left Qplus ts 0) 0 (-1).
(** nextStage (ProgressStageEstimator.cpp:39-53); which estimator the new stage uses is given to [estimate]. *)
Definition next_stage (e : estimator) : estimator :=
  if (Z.of_nat (length (stages e)) - 1 <=? current e)%Z then e
  else Est (stages e) (total_estimated e)
           (if (0 <=? current e)%Z then accumulated e + nth (Z.to_nat (current e)) (stages e) 0 else accumulated e) (current e + 1).
(** progress (ProgressStageEstimator.cpp:32-36), [p] being the progress of the current stage. *)
Definition estimate (e : estimator) (p : Q) : Q :=
  (accumulated e + p * nth (Z.to_nat (current e)) (stages e) 0) / total_estimated e.

(** ** The reports of a slice *)

(** A mesh in the inset and skin stage: its number of layers, and the values of the layer counter at which a thread found
    the lock free and reported, for the walls and for the skins (FffPolygonGenerator.cpp:480-506). *)
Record mesh_work := Mesh { layers : nat; walls : list nat; skins : list nat }.

(** The reports while processing a mesh (FffPolygonGenerator.cpp:466-475, 511-524, 553-567), given the estimator of all
    meshes; [progress * 100] is cut off to an integer (line 497). *)
Definition walls_vs_skin : list Q := [22953 # 1000; 48858 # 1000].
Definition layer_report (e inner : estimator) (m : mesh_work) (i : nat) : report :=
  Report INSET_SKIN (Qfloor (estimate e (estimate inner (inject_Z (Z.of_nat i) / inject_Z (Z.of_nat (layers m)))) * 100)) 100.
Definition mesh_reports (e : estimator) (m : mesh_work) : list report :=
  let w := next_stage (new_estimator walls_vs_skin) in
  map (layer_report e w m) (walls m) ++ map (layer_report e (next_stage w) m) (skins m).

(** The loop over the meshes (FffPolygonGenerator.cpp:366-391). *)
Fixpoint inset_reports (e : estimator) (n k : nat) (ms : list mesh_work) : list report :=
  match ms with
  | [] => []
  | m :: ms =>
    let e := next_stage e in
    mesh_reports e m ++ Report INSET_SKIN (Z.of_nat k + 1) (Z.of_nat n) :: inset_reports e n (S k) ms
  end.

(** What a slice does: the reports of the painting splitter and of support generation are left open (each of these stages
    reports whatever it likes), [exported] are the layers that are reported during export (Progress.cpp:66-84), in
    order, of [total] layers. *)
Record slice := Slice { splitting : list (Z * Z); meshes : list mesh_work; supporting : list (Z * Z);
                        exported : list Z; total : Z }.

(** All reports of a slice: MeshMaterialSplitter.cpp:593, FffPolygonGenerator.cpp:224, 347, 390, 497, the support stage,
    FffGcodeWriter.cpp:168 with Progress.cpp:82, Scene.cpp:97. *)
Definition slice_reports (s : slice) : list report :=
  let n := length (meshes s) in
  let each st := map (fun i => Report st (Z.of_nat i + 1) (Z.of_nat n)) (seq 0 n) in
  map (fun p => Report SPLIT p.1 p.2) (splitting s) ++ each SLICING ++ each PARTS ++
  inset_reports (new_estimator (replicate n 1)) n 0 (meshes s) ++
  map (fun p => Report SUPPORT p.1 p.2) (supporting s) ++
  map (fun l => Report EXPORT (Z.max l 0 + 1) (total s)) (exported s) ++ [Report FINISH 1 1].

(** ** The log *)

(** Progress::names (Progress.h:57): eight strings, of which the last is left empty. *)
Definition names : list string := ["start"; "slice"; "layerparts"; "inset+skin"; "support"; "export"; "process"; ""]%string.
(** Progress::messageProgressStage (Progress.cpp:46-64): the stage that it says is accomplished, and the one that it says
    starts. *)
Definition announce (stage : nat) : option string * option string :=
  (if Nat.ltb 0 stage then names !! (stage - 1)%nat else None, if Nat.ltb stage FINISH then names !! stage else None).
