(** Statistics files of the wavenumber integration: writing them, printing them as text and reading them in Python.
    Sources: pygrt/C_extension/src/integral/iostats.c, src/tools/grt_ker2asc.c, src/common/const.c 19-28,
    pygrt/utils.py read_statsfile and read_statsfile_ptam.
    A real_t is an IEEE double (Flocq [binary64], NaN payloads included), stored in 8 bytes, lowest first; a cplx_t is
    two of them. A byte is an integer in 0..255. What fprintf makes of a number is left as a token; the header names
    and the line ends are tokens as well. *)
From Coq Require Import ZArith String Ascii Bool List.
From Flocq Require Import IEEE754.Bits.
Import ListNotations.
Open Scope list_scope.

Definition bytes := list Z.
Definition cplx64 := (binary64 * binary64)%type.

(** fwrite / fread of an object of n bytes holding the integer z *)
Fixpoint le_bytes (n : nat) (z : Z) : bytes :=
  match n with O => [] | S n' => (z mod 256)%Z :: le_bytes n' (z / 256)%Z end.
Fixpoint le_value (b : bytes) : Z := match b with [] => 0%Z | x :: b' => (x + 256 * le_value b')%Z end.

Definition put_real (x : binary64) : bytes := le_bytes 8 (bits_of_b64 x).
Definition put_cplx (z : cplx64) : bytes := put_real (fst z) ++ put_real (snd z).
Definition as_real (b : bytes) : binary64 := b64_of_bits (le_value b).

(** fread(&x, n, 1, f): None when fewer than n bytes are left *)
Definition take (n : nat) (b : bytes) : option (bytes * bytes) :=
  if (n <=? length b)%nat then Some (firstn n b, skipn n b) else None.
Definition get_real (b : bytes) : option (binary64 * bytes) :=
  match take 8 b with Some (x, r) => Some (as_real x, r) | None => None end.
Definition get_cplx (b : bytes) : option (cplx64 * bytes) :=
  match take 16 b with Some (x, r) => Some ((as_real (firstn 8 x), as_real (skipn 8 x)), r) | None => None end.

(** const.c 19, 25, 28: GRT_SRC_M_ORDERS, GRT_SRC_M_NAME_ABBR, GRT_QWV_CODES *)
Definition M_ORDERS (im : nat) : nat := nth im [0; 0; 1; 0; 1; 2]%nat 0%nat.
Definition M_NAMES (im : nat) : string := nth im ["EX"; "VF"; "HF"; "DD"; "DS"; "SS"]%string ""%string.
Definition CODES (c : nat) : string := nth c ["q"; "w"; "v"]%string ""%string.
Definition DIGITS (v : nat) : string := nth v ["0"; "1"; "2"; "3"]%string ""%string.

(** const.h 152-158 GRT_LOOP_ChnlGrid, GRT_LOOP_IntegGrid *)
Definition chnl_cells : list (nat * nat) := list_prod (seq 0 6) (seq 0 3).
Definition integ_grid : list (nat * nat) := list_prod (seq 0 6) (seq 0 4).

(** iostats.c 26, 42, 60; 78, 98, 125: the cells passed over *)
Definition chnl_skip (im c : nat) : bool := (M_ORDERS im =? 0)%nat && String.eqb (CODES c) "v".
Definition integ_skip (im v : nat) : bool := (M_ORDERS im =? 0)%nat && negb (v =? 0)%nat && negb (v =? 2)%nat.

Definition grid64 := nat -> nat -> cplx64.
Definition rgrid64 := nat -> nat -> binary64.

(** iostats.c 20-30 grt_write_stats *)
Definition write_stats (k : binary64) (QWV : grid64) : bytes :=
  put_real k ++ flat_map (fun p => if chnl_skip (fst p) (snd p) then [] else put_cplx (QWV (fst p) (snd p))) chnl_cells.

(** iostats.c 70-85 grt_write_stats_ptam; GRT_PTAM_PT_MAX is 36 *)
Definition write_stats_ptam (Kpt : nat -> rgrid64) (Fpt : nat -> grid64) : bytes :=
  flat_map (fun i => flat_map (fun p =>
    if integ_skip (fst p) (snd p) then []
    else put_real (Kpt i (fst p) (snd p)) ++ put_cplx (Fpt i (fst p) (snd p))) integ_grid) (seq 0 36).

(** what is printed: a header name in a column of the width of a real or of a complex number, a real, a complex, a line end *)
Inductive tok := TName (wide : bool) (s : string) | TReal (x : binary64) | TCplx (z : cplx64) | TNL.

(** iostats.c 33-50: the header of grt_extract_stats *)
Definition stats_header (col0 : string) : list tok :=
  TName false col0 :: flat_map (fun p =>
    if chnl_skip (fst p) (snd p) then [] else [TName true (M_NAMES (fst p) ++ "_" ++ CODES (snd p))%string]) chnl_cells.

(** iostats.c 52-67: one line of grt_extract_stats: what is printed and, unless it returns -1, the rest of the file *)
Fixpoint extract_cells (cells : list (nat * nat)) (b : bytes) : list tok * option bytes :=
  match cells with
  | [] => ([], Some b)
  | (im, c) :: l =>
      if chnl_skip im c then extract_cells l b
      else match get_cplx b with
           | None => ([], None)
           | Some (z, b') => let '(t, r) := extract_cells l b' in (TCplx z :: t, r)
           end
  end.
Definition extract_stats (b : bytes) : list tok * option bytes :=
  match get_real b with
  | None => ([], None)
  | Some (k, b') => let '(t, r) := extract_cells chnl_cells b' in (TReal k :: t, r)
  end.

(** iostats.c 88-117: the header of grt_extract_stats_ptam *)
Definition ptam_header : list tok :=
  flat_map (fun p =>
    if integ_skip (fst p) (snd p) then []
    else [TName false ("sum_" ++ M_NAMES (fst p) ++ "_" ++ DIGITS (snd p) ++ "_k")%string;
          TName true ("sum_" ++ M_NAMES (fst p) ++ "_" ++ DIGITS (snd p))%string]) integ_grid.

(** iostats.c 120-133: one line of grt_extract_stats_ptam *)
Fixpoint extract_ptam_cells (cells : list (nat * nat)) (b : bytes) : list tok * option bytes :=
  match cells with
  | [] => ([], Some b)
  | (im, v) :: l =>
      if integ_skip im v then extract_ptam_cells l b
      else match get_real b with
           | None => ([], None)
           | Some (k, b1) =>
               match get_cplx b1 with
               | None => ([TReal k], None)
               | Some (z, b2) => let '(t, r) := extract_ptam_cells l b2 in (TReal k :: TCplx z :: t, r)
               end
           end
  end.
Definition extract_stats_ptam (b : bytes) : list tok * option bytes := extract_ptam_cells integ_grid b.

(** grt_ker2asc.c 60-71, 79-91: lines until one cannot be completed; every line takes at least one byte, so the
    length of the file bounds their number *)
Fixpoint print_lines (line : bytes -> list tok * option bytes) (fuel : nat) (b : bytes) : list tok :=
  match fuel with
  | O => []
  | S n => let '(t, r) := line b in match r with None => t | Some b' => t ++ TNL :: print_lines line n b' end
  end.
Definition print_K (col0 : string) (b : bytes) : list tok :=
  stats_header col0 ++ TNL :: print_lines extract_stats (S (length b)) b.
Definition print_PTAM (b : bytes) : list tok := ptam_header ++ TNL :: print_lines extract_stats_ptam (S (length b)) b.

(** grt_ker2asc.c 109-120: the kind of file is told from the start of its name; None: the error of line 119 *)
Definition ker2asc (basename : string) (b : bytes) : option (list tok) :=
  if String.eqb (substring 0 4 basename) "PTAM" then Some (print_PTAM b)
  else if String.eqb (substring 0 1 basename) "K" then Some (print_K "k" b)
  else if String.eqb (substring 0 1 basename) "C" then Some (print_K "c" b)
  else None.

(** numpy.fromfile with a record type: fields are (name, is complex); as many records as are complete *)
Inductive value := VReal (x : binary64) | VCplx (z : cplx64).
Definition dtype := list (string * bool).
Definition isize (f : string * bool) : nat := if snd f then 16%nat else 8%nat.
Definition itemsize (d : dtype) : nat := fold_right (fun f n => (isize f + n)%nat) 0%nat d.
Fixpoint decode (d : dtype) (b : bytes) : list (string * value) :=
  match d with
  | [] => []
  | f :: d' =>
      let x := firstn (isize f) b in
      (fst f, if snd f then VCplx (as_real (firstn 8 x), as_real (skipn 8 x)) else VReal (as_real x))
        :: decode d' (skipn (isize f) b)
  end.
Definition fromfile (d : dtype) (b : bytes) : list (list (string * value)) :=
  map (fun i => decode d (skipn (i * itemsize d) b)) (seq 0 (length b / itemsize d)).

(** utils.py 56-61: the Python copies of the tables *)
Definition py_ORDERS (im : nat) : nat := nth im [0; 0; 1; 0; 1; 2]%nat 0%nat.
Definition py_NAMES (im : nat) : string := nth im ["EX"; "VF"; "HF"; "DD"; "DS"; "SS"]%string ""%string.
Definition py_qwvchs (c : nat) : string := nth c ["q"; "w"; "v"]%string ""%string.

(** utils.py 493-500 *)
Definition stats_dtype (basename : string) : dtype :=
  ((if String.eqb (substring 0 1 basename) "K" then "k" else "c")%string, false) ::
  flat_map (fun im => flat_map (fun c =>
    if (py_ORDERS im =? 0)%nat && String.eqb (py_qwvchs c) "v" then []
    else [((py_NAMES im ++ "_" ++ py_qwvchs c)%string, true)]) (seq 0 3)) (seq 0 6).
Definition read_statsfile (basename : string) (b : bytes) := fromfile (stats_dtype basename) b.

(** utils.py 637-645 *)
Definition ptam_dtype : dtype :=
  flat_map (fun im => flat_map (fun v =>
    if (py_ORDERS im =? 0)%nat && negb (v =? 0)%nat && negb (v =? 2)%nat then []
    else [(("sum_" ++ py_NAMES im ++ "_" ++ DIGITS v ++ "_k")%string, false);
          (("sum_" ++ py_NAMES im ++ "_" ++ DIGITS v)%string, true)]) (seq 0 4)) (seq 0 6).
Definition read_statsfile_ptam (b : bytes) := fromfile ptam_dtype b.
