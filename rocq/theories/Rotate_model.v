(** Model of the writing of checkpoint files and of the rotation of output directories as sequences of file system
    operations that can stop anywhere: src/utility/checkpoint/checkpoint_write.c:22-66 (checkpoint_write),
    src/main/main/main.c:267-310 (make_output_directory), src/utility/checkpoint/checkpoint.c:20-88 (checkpoint),
    201-214 (checkpoint_checkifrestart), 219-245 (checkpoint_copy_output), src/main/main/utilities.c:362-390 (system2,
    system3: rename and remove_dir). *)
From Verif Require Import Base.

(** ** checkpoint_write, one process.  Paths are only compared. *)
Definition path := nat.
Definition fs := path -> option str.
Definition fs_set (s : fs) (p : path) (c : option str) : fs := fun q => if q =? p then c else s q.
(** the system calls: fopen(new,"wb"); each chunk that fprintf, fwrite and fclose hand to the operating system;
    fclose; fopen(new,"rb") and rename(new,name) *)
Inductive sysop := OpenNew | Write (chunk : str) | Close | Rename.
Definition program (chunks : list str) : list sysop := OpenNew :: map Write chunks ++ [Close; Rename].
(** One call.  [n] is the number of bytes that the system accepts in case of a Write (all of them unless the disk is full or the
    process is killed in between; the return values of fprintf, fwrite and fclose are not looked at).
    None: errorexit at checkpoint_write.c:41. [open] says whether fopen(new,"wb") succeeds. *)
Definition sys (name new : path) (open : bool) (s : fs) (o : sysop) (n : nat) : option fs :=
  match o with
  | OpenNew => if open then Some (fs_set s new (Some [])) else None
  | Write c => match s new with Some old => Some (fs_set s new (Some (old ++ firstn n c))) | None => Some s end
  | Close => Some s
  | Rename => match s new with
              | Some c => Some (fs_set (fs_set s name (Some c)) new None)     (* fp!=NULL: rename is atomic (POSIX) *)
              | None => Some s
              end
  end.
(** the program is stopped when the list of calls ends; [ns]: bytes accepted by each call *)
Fixpoint sys_run (name new : path) (open : bool) (s : fs) (os : list sysop) (ns : list nat) : fs :=
  match os, ns with
  | o :: os', n :: ns' => match sys name new open s o n with Some s' => sys_run name new open s' os' ns' | None => s end
  | _, _ => s
  end.

(** ** Rotation.  The content of a checkpoint file: complete, with the number of the checkpoint, or a part of one. *)
Inductive ckfile := Complete (id : nat) | Part.
(** an output directory: its checkpoint file if there is one (other files do not matter) *)
Record dir := { ck : option ckfile }.
(** state of the run and position in it *)
Inductive pc :=
| Start                      (* not running; the next run can start *)
| Removing | Renaming | Making | Checking    (* make_output_directory lines 305, 306, 310; PRE_GRID hook *)
| Running (restart : bool)   (* Getv("checkpoint","restart") *)
| RmCur | Back | Copying.    (* checkpoint_copy_output lines 234, 239, 241 *)
(** [cfg]: is the previous directory kept?  (--keep_previous, or checkpoint_previous not "no").
    [last]: number of the checkpoint that was completed last. *)
Record state := { at_ : pc; kp : bool; cpv : bool; cur : option dir; prev : option dir; last : nat }.
Definition has_ck (d : option dir) : bool := match d with Some x => match ck x with Some _ => true | None => false end | None => false end.
Definition set_at (s : state) (p : pc) : state := {| at_ := p; kp := kp s; cpv := cpv s; cur := cur s; prev := prev s; last := last s |}.
Definition set_fs (s : state) (c p : option dir) (a : pc) : state := {| at_ := a; kp := kp s; cpv := cpv s; cur := c; prev := p; last := last s |}.
Inductive step (allowed : bool -> bool -> Prop) : state -> state -> Prop :=
(* a run with the options k (--keep_previous) and c (checkpoint_previous) starts: main.c:284-304 *)
| st_refuse s : at_ s = Start -> has_ck (prev s) = true -> has_ck (cur s) = false -> step allowed s s
| st_start s c : at_ s = Start -> allowed false c -> (has_ck (prev s) && negb (has_ck (cur s))) = false ->
    step allowed s {| at_ := Removing; kp := false; cpv := c; cur := cur s; prev := prev s; last := last s |}
| st_start_keep s c : at_ s = Start -> allowed true c ->
    step allowed s {| at_ := Making; kp := true; cpv := c; cur := cur s; prev := prev s; last := last s |}
(* rm -rf outdir_previous: the files go one after the other, then the directory *)
| st_rm_file s d : at_ s = Removing -> prev s = Some d -> step allowed s (set_fs s (cur s) (Some {| ck := None |}) Removing)
| st_rm_done s : at_ s = Removing -> step allowed s (set_fs s (cur s) None Renaming)
(* mv outdir outdir_previous; fails if there is no outdir *)
| st_mv s d : at_ s = Renaming -> cur s = Some d -> step allowed s (set_fs s None (Some d) Making)
| st_mv_none s : at_ s = Renaming -> cur s = None -> step allowed s (set_at s Making)
(* mkdir outdir; fails if it is there *)
| st_mkdir s : at_ s = Making -> cur s = None -> step allowed s (set_fs s (Some {| ck := None |}) (prev s) Checking)
| st_mkdir_there s d : at_ s = Making -> cur s = Some d -> step allowed s (set_at s Checking)
(* checkpoint_checkifrestart *)
| st_check s : at_ s = Checking -> step allowed s (set_at s (Running (has_ck (prev s))))
(* checkpoint(): not in the restart phase a complete checkpoint is put in place by rename (see checkpoint_write) *)
| st_write s d : at_ s = Running false -> cur s = Some d ->
    step allowed s {| at_ := Running false; kp := kp s; cpv := cpv s; cur := Some {| ck := Some (Complete (S (last s))) |}; prev := prev s; last := S (last s) |}
(* checkpoint() in the restart phase at restart_it: checkpoint_read, then checkpoint_copy_output; at other iterations nothing *)
| st_restart s : at_ s = Running true -> step allowed s (set_at s RmCur)
| st_rmcur_file s d : at_ s = RmCur -> cur s = Some d -> step allowed s (set_fs s (Some {| ck := None |}) (prev s) RmCur)
| st_rmcur_done s : at_ s = RmCur -> step allowed s (set_fs s None (prev s) Back)
| st_mvback s d : at_ s = Back -> kp s = false -> cpv s = false -> prev s = Some d -> step allowed s (set_fs s (Some d) None (Running false))
| st_cp_begin s d : at_ s = Back -> kp s = true \/ cpv s = true -> prev s = Some d ->
    step allowed s (set_fs s (Some {| ck := match ck d with Some _ => Some Part | None => None end |}) (prev s) Copying)
| st_cp_end s d : at_ s = Copying -> prev s = Some d -> step allowed s (set_fs s (Some d) (prev s) (Running false))
(* the run ends, or is killed *)
| st_stop s : step allowed s (set_at s Start).
Inductive reach (allowed : bool -> bool -> Prop) : state -> state -> Prop :=
| r_refl s : reach allowed s s
| r_step s t u : reach allowed s t -> step allowed t u -> reach allowed s u.
(** no output directories *)
Definition fresh : state := {| at_ := Start; kp := false; cpv := false; cur := None; prev := None; last := 0 |}.
