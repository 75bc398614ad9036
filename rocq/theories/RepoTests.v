(** The unit tests of /repo on the model. They check the model, not the program: a test
    that fails here would show a mistake in the model (or a test that fails in /repo).
    - NarseseParser.rs 106-478: 28 tests of the parser
    - NarWorkingCycle.rs 818-908: 2 tests of the inference
    - BinSearch.rs 16-50: 6 tests that are commented out there because the function was
      changed to search goals; here on goals with these desirabilities
    - the sample sessions (.nal files): the sentences in them are read *)
From Coq Require Import String Ascii ZArith Bool List.
From Verif Require Import Base F64_Model Term_Model Stamp_Model Tv_Model Sentence_Model Infer_Model Goal_Model Parser_Model.
Import ListNotations.
Local Open Scope list_scope.

(** the numbers of the tests *)
Definition num (t : text) : option f64 :=
  if list_eq_dec ascii_dec t (tx "0.4") then Some (f_frac 4 10)
  else if list_eq_dec ascii_dec t (tx "0.8") then Some (f_frac 8 10) else None.
(** [(a - b).abs() < 0.01] *)
Definition near (a b : f64) : bool := fltb (fabs (fsub a b)) (f_frac 1 100).
(** what a test of the parser asserts *)
Definition reads (i out : string) (f c : f64) (p : punct) : bool :=
  match parseNarsese num (tx i) with
  | Ok (Some (t, v, p', _)) =>
      match convTermToStr t with Ok s => String.eqb s out | Panic => false end && near (tvf v) f && near (tvc v) c && punct_eqb p' p
  | _ => false
  end.

Example parser_inhWithTv : reads "<a --> b>. {0.4 0.8}" "<a --> b>" (f_frac 4 10) (f_frac 8 10) JUGEMENT = true.
Proof. vm_compute. reflexivity. Qed.
Example parser_inhWithoutTv : reads "<a --> b>." "<a --> b>" f1 (f_frac 9 10) JUGEMENT = true.
Proof. vm_compute. reflexivity. Qed.
Example parser_predImpl : reads "<a =/> b>." "<a =/> b>" f1 (f_frac 9 10) JUGEMENT = true.
Proof. vm_compute. reflexivity. Qed.
Example parser_equiv : reads "<a <=> b>." "<a <=> b>" f1 (f_frac 9 10) JUGEMENT = true.
Proof. vm_compute. reflexivity. Qed.
Example parser_numeric : reads "<0 --> b>." "<0 --> b>" f1 (f_frac 9 10) JUGEMENT = true.
Proof. vm_compute. reflexivity. Qed.
Example parser_qVar : reads "<?a --> b>." "<?a --> b>" f1 (f_frac 9 10) JUGEMENT = true.
Proof. vm_compute. reflexivity. Qed.
Example parser_indepVar : reads "<$a --> b>." "<$a --> b>" f1 (f_frac 9 10) JUGEMENT = true.
Proof. vm_compute. reflexivity. Qed.
Example parser_depVar : reads "<#a --> b>." "<#a --> b>" f1 (f_frac 9 10) JUGEMENT = true.
Proof. vm_compute. reflexivity. Qed.
Example parser_setInt : reads "<a --> [b]>." "<a --> [b]>" f1 (f_frac 9 10) JUGEMENT = true.
Proof. vm_compute. reflexivity. Qed.
Example parser_setExt : reads "<{a} --> b>." "<{a} --> b>" f1 (f_frac 9 10) JUGEMENT = true.
Proof. vm_compute. reflexivity. Qed.
Example parser_setExtProd : reads "<{(a*c)} --> b>." "<{( a * c )} --> b>" f1 (f_frac 9 10) JUGEMENT = true.
Proof. vm_compute. reflexivity. Qed.
Example parser_setExtProd_spaces : reads "<{(a * c)} --> b>." "<{( a * c )} --> b>" f1 (f_frac 9 10) JUGEMENT = true.
Proof. vm_compute. reflexivity. Qed.
Example parser_prod2 : reads "<(a*c) --> x>." "<( a * c ) --> x>" f1 (f_frac 9 10) JUGEMENT = true.
Proof. vm_compute. reflexivity. Qed.
Example parser_img2_0 : reads "<(a /1 c) --> x>." "<( a /1 c ) --> x>" f1 (f_frac 9 10) JUGEMENT = true.
Proof. vm_compute. reflexivity. Qed.
Example parser_img2_1 : reads "<(a /2 c) --> x>." "<( a /2 c ) --> x>" f1 (f_frac 9 10) JUGEMENT = true.
Proof. vm_compute. reflexivity. Qed.
Example parser_seq2 : reads "(a,c)." "( a , c )" f1 (f_frac 9 10) JUGEMENT = true.
Proof. vm_compute. reflexivity. Qed.
Example parser_seq3 : reads "(a,c,d)." "( a , c , d )" f1 (f_frac 9 10) JUGEMENT = true.
Proof. vm_compute. reflexivity. Qed.
Example parser_prod3 : reads "<(a*c*z) --> x>." "<( a * c * z ) --> x>" f1 (f_frac 9 10) JUGEMENT = true.
Proof. vm_compute. reflexivity. Qed.
Example parser_prod4 : reads "<(a*c*z*y) --> x>." "<( a * c * z * y ) --> x>" f1 (f_frac 9 10) JUGEMENT = true.
Proof. vm_compute. reflexivity. Qed.
Example parser_intint2 : reads "<(a|c) --> x>." "<( a | c ) --> x>" f1 (f_frac 9 10) JUGEMENT = true.
Proof. vm_compute. reflexivity. Qed.
Example parser_extint2 : reads "<(a&c) --> x>." "<( a & c ) --> x>" f1 (f_frac 9 10) JUGEMENT = true.
Proof. vm_compute. reflexivity. Qed.
Example parser_conj2_0 : reads "<(a&&c) ==> x>." "<( a && c ) ==> x>" f1 (f_frac 9 10) JUGEMENT = true.
Proof. vm_compute. reflexivity. Qed.
Example parser_conj2_1 : reads "<(<a --> b>&&c) ==> x>." "<( <a --> b> && c ) ==> x>" f1 (f_frac 9 10) JUGEMENT = true.
Proof. vm_compute. reflexivity. Qed.
Example parser_conj3_0 : reads "<(a&&c&&d) ==> x>." "<( a && c && d ) ==> x>" f1 (f_frac 9 10) JUGEMENT = true.
Proof. vm_compute. reflexivity. Qed.
Example parser_conj4_0 : reads "<(a&&c&&d&&e) ==> x>." "<( a && c && d && e ) ==> x>" f1 (f_frac 9 10) JUGEMENT = true.
Proof. vm_compute. reflexivity. Qed.
Example parser_seqPredImpl : reads "<(a,b) =/> c>." "<( a , b ) =/> c>" f1 (f_frac 9 10) JUGEMENT = true.
Proof. vm_compute. reflexivity. Qed.
Example parser_goalWithoutTv : reads "a-c!" "a-c" f1 (f_frac 9 10) GOAL = true.
Proof. vm_compute. reflexivity. Qed.
Example parser_neg_0 : reads "(!a)." "(! a )" f1 (f_frac 9 10) JUGEMENT = true.
Proof. vm_compute. reflexivity. Qed.

(** one of the conclusions reads [out] *)
Definition concludes (r : res (list concl * bool)) (out : string) : bool :=
  match r with
  | Ok (l, _) => existsb (fun c => match convTermToStr (fst (fst c)) with Ok s => String.eqb s out | Panic => false end) l
  | Panic => false
  end.
Definition inh (a b : string) : term := Stmt INH (Name a) (Name b).
Definition tv19 : option tv := Some (mkTv f1 (f_frac 9 10)).
Example inference_impl_a :
  concludes (infBinary (Stmt IMPL (inh "a" "b") (Stmt INH (IndepVar "c") (Name "d"))) QUESTION None (inh "c" "d") JUGEMENT tv19) "<<a --> b> ==> <c --> d>>" = true.
Proof. vm_compute. reflexivity. Qed.
Example inference_implConj2_a :
  concludes (infBinary (Stmt IMPL (Conj [inh "a" "b"; inh "c" "d"]) (Name "x")) JUGEMENT tv19 (inh "a" "b") JUGEMENT tv19) "<<c --> d> ==> x>" = true.
Proof. vm_compute. reflexivity. Qed.

(** BinSearch.rs 16-50, on goals that have the numbers as accumulated desirabilities *)
Definition goalOf (d : f64) : entry :=
  mkEntry (mkSentence (Name "g") None GOAL [] None None 0) None 0 0 d d d.
Definition finds (l : list f64) (v out : f64) : bool :=
  match binSearch (length l) (map goalOf l) v with Ok e => fleb (e_acc e) out && fleb out (e_acc e) | Panic => false end.
Definition half (n : positive) : f64 := f_frac n 2.
Example binSearch_1 : finds [half 2] (half 1) (half 2) = true.
Proof. vm_compute. reflexivity. Qed.
Example binSearch_2a : finds [half 2; half 4] (half 3) (half 2) = true.
Proof. vm_compute. reflexivity. Qed.
Example binSearch_2b : finds [half 2; half 4] (half 1) (half 2) = true.
Proof. vm_compute. reflexivity. Qed.
Example binSearch_3a : finds [half 2; half 4; half 6] (half 3) (half 2) = true.
Proof. vm_compute. reflexivity. Qed.
Example binSearch_3b : finds [half 2; half 4; half 6] (half 1) (half 2) = true.
Proof. vm_compute. reflexivity. Qed.
Example binSearch_3c : finds [half 2; half 4; half 6] (half 5) (half 4) = true.
Proof. vm_compute. reflexivity. Qed.

(** Every sentence of the sample sessions in nalExp, nalTest and nalMod is
    read, and the term is printed as it was written, up to spaces. *)
Fixpoint squeeze (t : text) : text :=
  match t with [] => [] | c :: r => if Ascii.eqb c " " then squeeze r else c :: squeeze r end.
(** the numbers there; only 1.0 has to be exact for these tests *)
Definition num2 (t : text) : option f64 :=
  if list_eq_dec ascii_dec t (tx "1.0") then Some f1 else Some (f_frac 9 10).
Definition kept (i : string) : bool :=
  match parseNarsese num2 (tx i) with
  | Ok (Some (t, _, _, _)) =>
      match convTermToStr t with
      | Ok s => let a := squeeze (tx s) in let b := squeeze (tx i) in
                if list_eq_dec ascii_dec a (firstn (length a) b) then true else false
      | Panic => false
      end
  | _ => false
  end.
Definition samples : list string := [
  "<<$1 --> [stressed]> ==> <$1 --> [smokes]>>. {1.0 0.99}";
  "<<#1 --> ((friend /2 $2)&[smokes])> ==> <$2 --> [smokes]>>. {1.0 0.9}";
  "<<$1 --> [smokes]> ==> <$1 --> [asthma]>>. {1.0 0.9}";
  "<{angelika} --> [smokes]>.";
  "<{jonas} --> (friend /1 {angelika})>.";
  "<{jonas} --> [asthma]>?";
  "<<($1*$2) --> larger> ==> <($2*$1) --> smaller>>.";
  "<<($1*$2) --> smaller> ==> <($2*$1) --> larger>>.";
  "<<($1*$2) --> above> ==> <($2*$1) --> below>>.";
  "<<($1*$2) --> next_to> <=> <($2*$1) --> next_to>>.";
  "<<($1*$2) --> over> ==> <($2*$1) --> under>>.";
  "<<($1*$2) --> under> ==> <($2*$1) --> over>>.";
  "<<($1*$2) --> outside> ==> <($2*$1) --> inside>>.";
  "<<($1*$2) --> inside> ==> <($2*$1) --> contains>>.";
  "<<($1*$2) --> contains> ==> <($1*$2) --> larger>>.";
  "<<($1*$2) --> on> ==> <($2*$1) --> under>>.";
  "<({box}*floor) --> on>.";
  "<({toy}*{box}) --> inside>.";
  "<({ball}*{box}) --> on>.";
  "<{?1} --> (contains /1 {toy})>?";
  "<{shape1} --> rectangle>.";
  "<{shape1} --> [filled]>.";
  "<({shape1}*{shape2}) --> leftOf>.";
  "<({shape1}*{shape3}) --> aboveOf>.";
  "<{shape2} --> circle>.";
  "<{shape2} --> [unfilled]>.";
  "<({shape2}*{shape3}) --> aboveOf>.";
  "<{shape3} --> triangle>.";
  "<{shape3} --> [unfilled]>.";
  "<({shape3}*{shape2}) --> leftOf>.";
  "<([filled]&rectangle) --> (leftOf /1 {?1})>?";
  "<{sky} --> [blue]>.";
  "<{tom} --> cat>.";
  "<({tom}*{sky}) --> likes>.";
  "<(cat*[blue]) --> likes>?";
  "<cat --> animal>.";
  "<animal --> [living]>.";
  "<(cat*fish) --> eats>.";
  "<cod --> fish>.";
  "<{tom} --> (eats /1 cod)>?";
  "<({sam}*{tim}) --> likes>.";
  "<({sam}*animal) --> likes>?";
  "<{tim} --> animal>.";
  "<{tom} --> computer>.";
  "<({tom}*runprogram) --> can>.";
  "<runprogram --> (long|runprogram)>.";
  "<({tom}*(long|runprogram)) --> can>?";
  "<(<{($w0*$0)} --> RELrepresent>&&<{($w1*$1)} --> RELrepresent>) ==> <({($w0*WORDENcan*$w1)}*<($0*$1) --> RELcan>) --> RELrepresent>>.";
  "<(<{($w0*$0)} --> RELrepresent>&&<{($w1*$1)} --> RELrepresent>) ==> <({($w0*WORDENeat*$w1)}*<($0*$1) --> RELfood>) --> RELrepresent>>.";
  "<(<{($w0*$0)} --> RELrepresent>&&<{($w1*$1)} --> RELrepresent>) ==> <({($w0*WORDENis*$w1)}*<$0 --> $1>) --> RELrepresent>>.";
  "<(<{($w0*$0)} --> RELrepresent>&&<{($w1*$1)} --> RELrepresent>) ==> <({($w0*WORDENare*$w1)}*<$0 --> $1>) --> RELrepresent>>.";
  "<(<{($w0*$0)} --> RELrepresent>&&<{($w1*$1)} --> RELrepresent>) ==> <({($w0*WORDENin*$w1)}*<($0*$1) --> RELin>) --> RELrepresent>>.";
  "<{(WORDENdog*dog)} --> RELrepresent>.";
  "<{(WORDENcat*cat)} --> RELrepresent>.";
  "<{(WORDENcats*cat)} --> RELrepresent>. {1.0 0.8}";
  "<{(WORDENfish*fish)} --> RELrepresent>.";
  "<(a,<{({SELF}*(<{({SELF}*dummy0)} --> ^nop>,<{({SELF}*dummy0)} --> ^nop>)*b)} --> ^nal9_exeAndInject>) =/> g>.";
  "a. :|:";
  "g! {1.0 0.998} :|:";
  "<(<{($w0*$0)} --> RELrepresent>&&<{($w1*$1)} --> RELrepresent>) ==> <({($w0*WORDENcan_t*$w1)}*(!<($0*$1) --> RELcan>)) --> RELrepresent>>.";
  "<(<{($w0*$0)} --> RELrepresent>&&<{($w1*$1)} --> RELrepresent>) ==> <({($w0*WORDENisn_t*$w1)}*(!<$0 --> $1>)) --> RELrepresent>>.";
  "<(<{($w0*$0)} --> RELrepresent>&&<{($w1*$1)} --> RELrepresent>) ==> <({($w0*WORDENaren_t*$w1)}*(!<$0 --> $1>)) --> RELrepresent>>.";
  "<(<#1 --> [orange]>,<{({SELF}*dummy0)} --> ^run>) =/> <{SELF} --> [safe]>>.";
  "<{garfield} --> [orange]>.";
  "<{garfield} --> cat>.";
  "<cat --> [meowing]>.";
  "<{cat1} --> [meowing]>.";
  "<{SELF} --> [safe]>! :|:";
  "<(x,^x) =/> y>.";
  "<(x,^x) =/> ?y>?"]%string.
Example samples_kept : forallb kept samples = true.
Proof. vm_compute. reflexivity. Qed.
