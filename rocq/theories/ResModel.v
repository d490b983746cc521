(** Model of phik/resources.py:17-48 over histories of the file system: the two dictionaries are filled once, when the module is
    imported, and every later call consults them and the file system as it is then. Paths are POSIX strings; a directory entry either
    resolves (file, directory, working link) or does not (broken link). *)
From Coq Require Import String Ascii List Bool.
Import ListNotations.
From Verif Require Import Base BinModel ReportModel.
Open Scope list_scope.

(** a directory entry: directory, name, whether Path.exists() holds for it *)
Definition entry : Type := string * string * bool.
Definition fs : Type := list entry.
Definition same_entry (d n : string) (e : entry) : bool := let '(d', n', _) := e in String.eqb d d' && String.eqb n n'.
(** str(pathlib.Path(d) / n) *)
Definition join (d n : string) : string := append d (append "/" n).
(** Path.glob('*.ipynb') *)
Fixpoint ends_with (suf s : string) : bool :=
  String.eqb s suf || match s with EmptyString => false | String _ r => ends_with suf r end.
(** pathlib.Path(d).glob(pattern): the names in the directory that match; nothing if there is no such directory (resources.py:22,24) *)
Definition glob (s : fs) (d : string) (pat : string -> bool) : list string :=
  map (fun e => snd (fst e)) (filter (fun e => String.eqb d (fst (fst e)) && pat (snd (fst e))) s).
(** {_.name: _ for _ in ...} (resources.py:22,24) *)
Definition snapshot (s : fs) (d : string) (pat : string -> bool) : list (string * string) := map (fun n => (n, join d n)) (glob s d pat).
(** full_path.exists() (resources.py:44) *)
Definition path_exists (s : fs) (p : string) : bool := existsb (fun e => String.eqb p (join (fst (fst e)) (snd (fst e))) && snd e) s.

(** what can happen: entries appear and vanish, the module is imported, a resource is asked for *)
Inductive op := OCreate (d n : string) (resolves : bool) | ORemove (d n : string) | OImport | OFixture (name : string) | ONotebook (name : string) | OOther (kind name : string).
(** resources.py:22-30: the two dictionaries, once imported *)
Record mods := mkMods { m_fixture : list (string * string); m_notebook : list (string * string) }.
Section Run.
  Variables data_dir notebook_dir : string.   (* resource_filename(phik.__name__, 'data' / 'notebooks'), resources.py:22,24 *)
  (** import phik.resources; importing again does nothing (sys.modules) *)
  Definition import (s : fs) (m : option mods) : option mods :=
    match m with Some _ => m
    | None => Some (mkMods (snapshot s data_dir (fun _ => true)) (snapshot s notebook_dir (ends_with ".ipynb"))) end.
  (** resources.py:26-29,42: _RESOURCES[resource_type] *)
  Definition resource_of_kind (m : mods) (kind name : string) (s : fs) : res string :=
    if String.eqb kind "fixture" then resource (m_fixture m) (path_exists s) name
    else if String.eqb kind "notebook" then resource (m_notebook m) (path_exists s) name
    else Raise KeyError.
  (** asking before the module is imported: AttributeError, module 'phik' has no attribute 'resources' *)
  Definition ask (m : option mods) (kind name : string) (s : fs) : res string :=
    match m with None => Raise AttributeError | Some m => resource_of_kind m kind name s end.
  Definition step (w : fs * option mods) (o : op) : (fs * option mods) * list (res string) :=
    let '(s, m) := w in
    match o with
    | OCreate d n r => (((d, n, r) :: filter (fun e => negb (same_entry d n e)) s, m), [])
    | ORemove d n => ((filter (fun e => negb (same_entry d n e)) s, m), [])
    | OImport => ((s, import s m), [])
    | OFixture n => (w, [ask m "fixture" n s])      (* resources.py:51-58 *)
    | ONotebook n => (w, [ask m "notebook" n s])    (* resources.py:61-68 *)
    | OOther k n => (w, [ask m k n s])              (* resources.py:33-48 [_resource] *)
    end.
  Fixpoint play (w : fs * option mods) (h : list op) : (fs * option mods) * list (res string) :=
    match h with [] => (w, []) | o :: h' => let '(w1, a) := step w o in let '(w2, b) := play w1 h' in (w2, a ++ b) end.
  (** the answer to a question asked after the history h *)
  Definition answer (h : list op) (q : op) : list (res string) := snd (step (fst (play ([], None) h)) q).
End Run.
