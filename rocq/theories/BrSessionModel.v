(** Model of a program that uses [BeamAnalysis] and [BridgeAnalysis] objects together
    (src/pycba/bridge.py): which load list the static loads of each bridge analysis are.  Such an
    object keeps the load list of the analysis it is given without copying it (bridge.py:119, 153,
    174), while each vehicle position gives the analysis a new list (bridge.py:356-358, 581-582).
    Simplifications: those of SessionModel; the positions of a traverse are given as a list (how
    they follow from the step: C36) and plots are left out (C86, C87). *)
From Verif Require Import Base Linalg SectionModel LoadModel FoundationModel ElementModel UtilsModel BeamModel AnalysisModel ResultsModel RenderModel SessionModel
  EnvelopeModel VehicleModel BridgeModel.
Open Scope R_scope.

(** bridge.py:107-119: [bo_static] is the list object [static_LM]. *)
Record bobj := { bo_ba : option nat; bo_veh : option vehicle; bo_static : nat }.
Record bstore := { bs_st : store; bs_br : list bobj }.
Definition bstore0 : bstore := {| bs_st := store0; bs_br := [] |}.

Inductive bcall :=
| Plain (k : call)                                 (* a call of SessionModel *)
| NewBridge (p : option nat) (v : option vehicle)  (* BridgeAnalysis(ba, veh) *)
| SetBridge (q p : nat)                            (* obj.set_bridge(ba); add_bridge constructs and sets *)
| SetVehicle (q : nat) (v : vehicle)               (* obj.set_vehicle(veh), obj.add_vehicle(...) *)
| Static (q : nat) (pos : R) (sp : sparg) (dv : option R)               (* obj.static_vehicle *)
| Traverse (q : nat) (ps : list R) (sp : sparg) (dv : option R)         (* obj.run_vehicle *)
| LaneTraverse (q : nat) (ps : list R) (w : R) (c : clr) (sp : sparg) (dv : option R).  (* obj.run_load_model *)

Section Calls.
Variable gl : nat -> list (R * R).
Variable ill : nat -> mat -> bool.

(** bridge.py:339-359 [_single_analysis] and 581-583: object [p] gets a new list with the static
    loads and [rows] and is analysed.  Also returned: the analysed loads and the results. *)
Definition position_run (st : store) (p static : nat) (o : sobj) (sps : nat -> list R) (rows : list row) : store * (list row * result bres) :=
  let (st1, r) := new_list st (add_LM (rows_of st static) rows) in
  let o1 := {| so_an := so_an o; so_lm := r; so_res := so_res o |} in
  let (a, res) := analyze gl ill (seen st1 o1) sps None true in
  (write_obj st1 p {| so_an := a; so_lm := r; so_res := match res with Ok x => Some x | Err _ => so_res o end |}, (rows_of st1 r, res)).

(** bridge.py:427-438, 557-586: the positions one after another. *)
Fixpoint positions_run (st : store) (p static : nat) (sps : nat -> list R) (rows : beam -> R -> result (list row)) (ps : list R)
    (out : list (list row * result bres)) : store * list (list row * result bres) * result unit :=
  match ps with
  | [] => (st, out, Ok tt)
  | x :: t =>
      match nth_error (st_objs st) p with
      | None => (st, out, Err NameError)
      | Some o =>
          match rows (an_beam (so_an o)) x with
          | Err e => (st, out, Err e)
          | Ok rs => let (st', d) := position_run st p static o sps rs in
                     match snd d with
                     | Ok _ => positions_run st' p static sps rows t (out ++ [d])
                     | Err e => (st', out ++ [d], Err e)
                     end
          end
      end
  end.

(** bridge.py:412-416, 544-549, 1330-1345: the objects are checked, the shear points resolved. *)
Definition run_of (s : bstore) (q : nat) (sp : sparg) (dv : option R) (rows : vehicle -> beam -> R -> result (list row)) (ps : list R) :
    bstore * list (list row * result bres) * result unit :=
  match nth_error (bs_br s) q with
  | None => (s, [], Err NameError)
  | Some b =>
      match bo_ba b, bo_veh b with
      | None, _ => (s, [], Err ValueError)
      | _, None => (s, [], Err ValueError)
      | Some p, Some v =>
          match nth_error (st_objs (bs_st s)) p with
          | None => (s, [], Err NameError)
          | Some o =>
              match apply_shear_points (an_beam (so_an o)) sp dv with
              | Err e => (s, [], Err e)
              | Ok (sps, _) => let '(st', out, r) := positions_run (bs_st s) p (bo_static b) sps (rows v) ps [] in
                               ({| bs_st := st'; bs_br := bs_br s |}, out, r)
              end
          end
      end
  end.

Definition on_bridge (s : bstore) (q : nat) (f : bobj -> bobj) : bstore * result unit :=
  match nth_error (bs_br s) q with
  | Some b => ({| bs_st := bs_st s; bs_br := put (bs_br s) q (f b) |}, Ok tt)
  | None => (s, Err NameError)
  end.

(** One call: the state after it, the loads and results of the positions it analysed. *)
Definition bexec (s : bstore) (k : bcall) : bstore * list (list row * result bres) * result unit :=
  match k with
  | Plain k => let (st, r) := exec gl ill (bs_st s) k in ({| bs_st := st; bs_br := bs_br s |}, [], r)
  | NewBridge None v =>
      let (st, r) := new_list (bs_st s) [] in
      ({| bs_st := st; bs_br := bs_br s ++ [{| bo_ba := None; bo_veh := v; bo_static := r |}] |}, [], Ok tt)
  | NewBridge (Some p) v =>
      match nth_error (st_objs (bs_st s)) p with
      | Some o => ({| bs_st := bs_st s; bs_br := bs_br s ++ [{| bo_ba := Some p; bo_veh := v; bo_static := so_lm o |}] |}, [], Ok tt)
      | None => (s, [], Err NameError)
      end
  | SetBridge q p =>
      match nth_error (st_objs (bs_st s)) p with
      | Some o => let (s', r) := on_bridge s q (fun b => {| bo_ba := Some p; bo_veh := bo_veh b; bo_static := so_lm o |}) in (s', [], r)
      | None => (s, [], Err NameError)
      end
  | SetVehicle q v => let (s', r) := on_bridge s q (fun b => {| bo_ba := bo_ba b; bo_veh := Some v; bo_static := bo_static b |}) in (s', [], r)
  | Static q pos sp dv => run_of s q sp dv (fun v b p => axle_LM b v p) [pos]
  | Traverse q ps sp dv => run_of s q sp dv (fun v b p => axle_LM b v p) ps
  | LaneTraverse q ps w c sp dv =>
      match validate_clearances c with
      | Err e => (s, [], Err e)
      | Ok bf => run_of s q sp dv (fun v b p => do ax <- axle_LM b v p; Ok (ax ++ lane_rows b v c bf w p)) ps
      end
  end.

Definition brun (ks : list bcall) : bstore := fold_left (fun s k => fst (fst (bexec s k))) ks bstore0.
End Calls.
