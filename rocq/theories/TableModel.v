(** Models src/io/CSVWriter.h, TecplotWriter.h, ScalarWriter.cpp, ProbeWriter.cpp (write_header,
    write) and BoundaryProbeWriter.cpp (the same two functions).  Text is a list of characters. *)
Require Import Ascii String List Bool Arith.
Import ListNotations.
Local Open Scope list_scope.

Definition text := list ascii.
Definition str (s : string) : text := list_ascii_of_string s.
Definition newline : ascii := ascii_of_nat 10.

(** ** The output stream *)

(** An open std::ofstream: content of the file, put position, fail bit, and the separator of the
    writer (CSVWriter.h:21). *)
Record stream := { content : text; pos : nat; failed : bool; sep : ascii }.

(** operator<< of a text: overwrites from the put position on.  A failed stream ignores it. *)
Definition put (t : text) (s : stream) : stream :=
  if failed s then s else
  {| content := firstn (pos s) (content s) ++ t ++ skipn (pos s + length t) (content s);
     pos := pos s + length t; failed := false; sep := sep s |}.

(** out_.seekp(-1, std::ios::cur): fails at the beginning of the file. *)
Definition seek_back (s : stream) : stream :=
  if failed s then s else
  match pos s with
  | O => {| content := content s; pos := 0; failed := true; sep := sep s |}
  | S p => {| content := content s; pos := p; failed := false; sep := sep s |}
  end.

Definition set_sep (c : ascii) (s : stream) : stream :=
  {| content := content s; pos := pos s; failed := failed s; sep := c |}.

(** CSVWriter.h:16 [add], for a value that the stream formats as the text [t]. *)
Definition add (t : text) (s : stream) : stream := put [sep s] (put t s).

(** CSVWriter.h:74-77: strings are quoted. *)
Definition quote : ascii := ascii_of_nat 34.
Definition add_string (t : text) (s : stream) : stream := put [sep s] (put ([quote] ++ t ++ [quote]) s).

(** CSVWriter.h:50-53. *)
Definition endrow (s : stream) : stream := put [newline] (seek_back s).

(** CSVWriter with a separator, or TecplotWriter (TecplotWriter.h:10-29). *)
Inductive kind := Csv (separator : ascii) | Tecplot.
Definition initial_sep (k : kind) : ascii := match k with Csv c => c | Tecplot => " "%char end.

(** CSVWriter.h:49, TecplotWriter.h:16-18. *)
Definition add_title (k : kind) (t : text) (s : stream) : stream :=
  match k with
  | Csv _ => put (str "# " ++ t ++ [newline]) s
  | Tecplot => put (str "TITLE = " ++ [quote] ++ t ++ [quote] ++ [newline]) s
  end.
(** CSVWriter.h:54, TecplotWriter.h:19-22. *)
Definition beginheader (k : kind) (s : stream) : stream :=
  match k with Csv _ => s | Tecplot => set_sep ","%char (put (str "VARIABLES = ") s) end.
(** CSVWriter.h:55, TecplotWriter.h:23-26. *)
Definition endheader (k : kind) (s : stream) : stream :=
  match k with Csv _ => endrow s | Tecplot => set_sep " "%char (endrow s) end.

(** ** Writers *)

(** Title and column names of a table: ScalarWriter.cpp:9-16, ProbeWriter.cpp:57-77 and
    BoundaryProbeWriter.cpp:55-75 (the title text, a station name with coordinates, is given). *)
Definition write_header (k : kind) (title : text) (names : list text) (s : stream) : stream :=
  endheader k (fold_left (fun s n => add_string n s) (str "Time" :: names)
                         (beginheader k (add_title k title s))).

(** CSVWriter.h:34-44: without append the file is truncated; with append (ios::ate | ios::in) the
    put position is at the end. *)
Definition open (c : ascii) (old : text) (append : bool) : stream :=
  if append then {| content := old; pos := length old; failed := false; sep := c |}
  else {| content := []; pos := 0; failed := false; sep := c |}.

(** One row: the number texts are given in the order written (time first). *)
Definition write_row (row : list text) (s : stream) : stream :=
  endrow (fold_left (fun s t => add t s) row s).

(** ScalarWriter.cpp:18-37, ProbeWriter.cpp:80-97: one write to one file.  [early] is time <= 0,
    [file] the present content of the file if it exists.  The separator is the one left by earlier
    writes of the same writer; it is returned with the content. *)
Definition write_file (k : kind) (c : ascii) (title : text) (names : list text) (early : bool)
    (row : list text) (file : option text) : text * ascii :=
  let old := match file with Some t => t | None => [] end in
  let s := if early then write_header k title names (open c old false)
           else match file with
                | Some _ => open c old true
                | None => write_header k title names (open c old false)
                end in
  let s := write_row row s in
  (content s, sep s).

(** A history of writes of ScalarWriter: (time <= 0, number texts of the row). *)
Fixpoint run (k : kind) (c : ascii) (title : text) (names : list text)
    (h : list (bool * list text)) (file : option text) : option text :=
  match h with
  | [] => file
  | (early, row) :: h' =>
      let '(t, c') := write_file k c title names early row file in
      run k c' title names h' (Some t)
  end.

(** ** Probe writers: one file per probe *)

Section Probes.
  Variable name : Type.
  Variable name_eqb : name -> name -> bool.

  Definition files := name -> option text.
  Definition store (n : name) (t : text) (fs : files) : files :=
    fun m => if name_eqb m n then Some t else fs m.

  (** ProbeWriter.cpp:79-105, BoundaryProbeWriter.cpp:77-104: [probes] lists file name and title,
      [rows] the row of each probe. *)
  Fixpoint write_probes (k : kind) (c : ascii) (names : list text) (early : bool)
      (probes : list (name * text)) (rows : list (list text)) (fs : files) : files * ascii :=
    match probes, rows with
    | (n, title) :: ps, row :: rs =>
        let '(t, c') := write_file k c title names early row (fs n) in
        write_probes k c' names early ps rs (store n t fs)
    | _, _ => (fs, c)
    end.

  Fixpoint run_probes (k : kind) (c : ascii) (names : list text) (probes : list (name * text))
      (h : list (bool * list (list text))) (fs : files) : files :=
    match h with
    | [] => fs
    | (early, rows) :: h' =>
        let '(fs', c') := write_probes k c names early probes rows fs in
        run_probes k c' names probes h' fs'
    end.
End Probes.
