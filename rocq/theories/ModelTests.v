(** Generated by tools/model_tests.py: the repository's own tests, run on the model.

    These are tests of the model, not proofs of any property: each asks Coq to compute a
    model function on the literal inputs of a test in /repo and to compare the result with
    what that test asserts of the compiled Rust.  No claim of MANIFEST.json rests on them. *)
From Coq Require Import List NArith ZArith Bool.
From Verif Require Import Base Utf8 StrModel ErrorModel ErrorDisplay Tokenizer Parser ValueModel DocModel NumModel ObjectModel.
Import ListNotations.
Local Open Scope N_scope.

Definition is_ok {E A} (r : res E A) : bool := match r with Ok _ => true | _ => false end.
Definition is_err {E A} (r : res E A) : bool := match r with Err _ => true | _ => false end.
Definition no_fault {E A} (r : res E A) : bool := match r with Fault _ => false | _ => true end.
Definition many (n : N) (s : list N) : list N := N.iter n (app s) [].
Definition widths : list pwidth := [W32; W64].
Definition all_widths (f : pwidth -> bool) : bool := forallb f widths.

(** /repo/tests/JSONTestSuite/y_*.json (95 files), tests/jsontestsuite.rs. *)
Definition suite_y : list (list N) :=
  [([91;91;93;32;32;32;93]);
   ([91;34;34;93]);
   ([91;93]);
   ([91;34;97;34;93]);
   ([91;102;97;108;115;101;93]);
   ([91;110;117;108;108;44;32;49;44;32;34;49;34;44;32;123;125;93]);
   ([91;110;117;108;108;93]);
   ([91;49;10;93]);
   ([32;91;49;93]);
   ([91;49;44;110;117;108;108;44;110;117;108;108;44;110;117;108;108;44;50;93]);
   ([91;50;93;32]);
   ([91;49;50;51;101;54;53;93]);
   ([91;48;101;43;49;93]);
   ([91;48;101;49;93]);
   ([91;32;52;93]);
   ([91;45;48;46;48;48;48;48;48;48;48;48;48;48;48;48;48;48;48;48;48;48;48;48;48;48;48;48;48;48;48;48;48;48;48;48;48;48;48;48;48;48;48;48;48;48;48;48;48;48;48;48;48;48;48;48;48;48;48;48;48;48;48;48;48;48;48;48;48;48;48;48;48;48;48;48;48;48;48;48;48;49;93;10]);
   ([91;50;48;101;49;93]);
   ([91;45;48;93]);
   ([91;45;49;50;51;93]);
   ([91;45;49;93]);
   ([91;45;48;93]);
   ([91;49;69;50;50;93]);
   ([91;49;69;45;50;93]);
   ([91;49;69;43;50;93]);
   ([91;49;50;51;101;52;53;93]);
   ([91;49;50;51;46;52;53;54;101;55;56;93]);
   ([91;49;101;45;50;93]);
   ([91;49;101;43;50;93]);
   ([91;49;50;51;93]);
   ([91;49;50;51;46;52;53;54;55;56;57;93]);
   ([123;34;97;115;100;34;58;34;115;100;102;34;44;32;34;100;102;103;34;58;34;102;103;104;34;125]);
   ([123;34;97;115;100;34;58;34;115;100;102;34;125]);
   ([123;34;97;34;58;34;98;34;44;34;97;34;58;34;99;34;125]);
   ([123;34;97;34;58;34;98;34;44;34;97;34;58;34;98;34;125]);
   ([123;125]);
   ([123;34;34;58;48;125]);
   ([123;34;102;111;111;92;117;48;48;48;48;98;97;114;34;58;32;52;50;125]);
   ([123;32;34;109;105;110;34;58;32;45;49;46;48;101;43;50;56;44;32;34;109;97;120;34;58;32;49;46;48;101;43;50;56;32;125]);
   ([123;34;120;34;58;91;123;34;105;100;34;58;32;34;120;120;120;120;120;120;120;120;120;120;120;120;120;120;120;120;120;120;120;120;120;120;120;120;120;120;120;120;120;120;120;120;120;120;120;120;120;120;120;120;34;125;93;44;32;34;105;100;34;58;32;34;120;120;120;120;120;120;120;120;120;120;120;120;120;120;120;120;120;120;120;120;120;120;120;120;120;120;120;120;120;120;120;120;120;120;120;120;120;120;120;120;34;125]);
   ([123;34;97;34;58;91;93;125]);
   ([123;34;116;105;116;108;101;34;58;34;92;117;48;52;49;102;92;117;48;52;51;101;92;117;48;52;51;98;92;117;48;52;52;50;92;117;48;52;51;101;92;117;48;52;52;48;92;117;48;52;51;48;32;92;117;48;52;49;55;92;117;48;52;51;53;92;117;48;52;51;99;92;117;48;52;51;98;92;117;48;52;51;53;92;117;48;52;51;97;92;117;48;52;51;101;92;117;48;52;51;102;92;117;48;52;51;48;34;32;125]);
   ([123;10;34;97;34;58;32;34;98;34;10;125]);
   ([91;34;92;117;48;48;54;48;92;117;48;49;50;97;92;117;49;50;65;66;34;93]);
   ([91;34;92;117;68;56;48;49;92;117;100;99;51;55;34;93]);
   ([91;34;92;117;100;56;51;100;92;117;100;101;51;57;92;117;100;56;51;100;92;117;100;99;56;100;34;93]);
   ([91;34;92;34;92;92;92;47;92;98;92;102;92;110;92;114;92;116;34;93]);
   ([91;34;92;92;117;48;48;48;48;34;93]);
   ([91;34;92;34;34;93]);
   ([91;34;97;47;42;98;42;47;99;47;42;100;47;47;101;34;93]);
   ([91;34;92;92;97;34;93]);
   ([91;34;92;92;110;34;93]);
   ([91;34;92;117;48;48;49;50;34;93]);
   ([91;34;92;117;70;70;70;70;34;93]);
   ([91;34;97;115;100;34;93]);
   ([91;32;34;97;115;100;34;93]);
   ([91;34;92;117;68;66;70;70;92;117;68;70;70;70;34;93]);
   ([91;34;110;101;119;92;117;48;48;65;48;108;105;110;101;34;93]);
   ([91;34;244;143;191;191;34;93]);
   ([91;34;239;191;191;34;93]);
   ([91;34;92;117;48;48;48;48;34;93]);
   ([91;34;92;117;48;48;50;99;34;93]);
   ([91;34;207;128;34;93]);
   ([91;34;240;155;191;191;34;93]);
   ([91;34;97;115;100;32;34;93]);
   ([34;32;34]);
   ([91;34;92;117;68;56;51;52;92;117;68;100;49;101;34;93]);
   ([91;34;92;117;48;56;50;49;34;93]);
   ([91;34;92;117;48;49;50;51;34;93]);
   ([91;34;226;128;168;34;93]);
   ([91;34;226;128;169;34;93]);
   ([91;34;92;117;48;48;54;49;92;117;51;48;97;102;92;117;51;48;69;65;92;117;51;48;98;57;34;93]);
   ([91;34;110;101;119;92;117;48;48;48;65;108;105;110;101;34;93]);
   ([91;34;127;34;93]);
   ([91;34;92;117;65;54;54;68;34;93]);
   ([91;34;92;117;48;48;53;67;34;93]);
   ([91;34;226;141;130;227;136;180;226;141;130;34;93]);
   ([91;34;92;117;68;66;70;70;92;117;68;70;70;69;34;93]);
   ([91;34;92;117;68;56;51;70;92;117;68;70;70;69;34;93]);
   ([91;34;92;117;50;48;48;66;34;93]);
   ([91;34;92;117;50;48;54;52;34;93]);
   ([91;34;92;117;70;68;68;48;34;93]);
   ([91;34;92;117;70;70;70;69;34;93]);
   ([91;34;92;117;48;48;50;50;34;93]);
   ([91;34;226;130;172;240;157;132;158;34;93]);
   ([91;34;97;127;97;34;93]);
   ([102;97;108;115;101]);
   ([52;50]);
   ([45;48;46;49]);
   ([110;117;108;108]);
   ([34;97;115;100;34]);
   ([116;114;117;101]);
   ([34;34]);
   ([91;34;97;34;93;10]);
   ([91;116;114;117;101;93]);
   ([32;91;93;32])].

Example JSONTestSuite_y :
  forallb (fun s => all_widths (fun pw => is_ok (validate_json_bytes pw s))) suite_y = true.
Proof. vm_compute. reflexivity. Qed.

(** /repo/tests/JSONTestSuite/n_*.json (188 files), tests/jsontestsuite.rs. *)
Definition suite_n : list (list N) :=
  [([91;49;32;116;114;117;101;93]);
   ([91;97;229;93]);
   ([91;34;34;58;32;49;93]);
   ([91;34;34;93;44]);
   ([91;44;49;93]);
   ([91;49;44;44;50;93]);
   ([91;34;120;34;44;44;93]);
   ([91;34;120;34;93;93]);
   ([91;34;34;44;93]);
   ([91;34;120;34]);
   ([91;120]);
   ([91;51;91;52;93;93]);
   ([91;255;93]);
   ([91;49;58;50;93]);
   ([91;44;93]);
   ([91;45;93]);
   ([91;32;32;32;44;32;34;34;93]);
   ([91;34;97;34;44;10;52;10;44;49;44]);
   ([91;49;44;93]);
   ([91;49;44;44;93]);
   ([91;34;11;97;34;92;102;93]);
   ([91;42;93]);
   ([91;34;34]);
   ([91;49;44]);
   ([91;49;44;10;49;10;44;49]);
   ([91;123;125]);
   ([91;102;97;108;115;93]);
   ([91;110;117;108;93]);
   ([91;116;114;117;93]);
   ([49;50;51;0]);
   ([91;43;43;49;50;51;52;93]);
   ([91;43;49;93]);
   ([91;43;73;110;102;93]);
   ([91;45;48;49;93]);
   ([91;45;49;46;48;46;93]);
   ([91;45;50;46;93]);
   ([91;45;78;97;78;93]);
   ([91;46;45;49;93]);
   ([91;46;50;101;45;51;93]);
   ([91;48;46;49;46;50;93]);
   ([91;48;46;51;101;43;93]);
   ([91;48;46;51;101;93]);
   ([91;48;46;101;49;93]);
   ([91;48;69;43;93]);
   ([91;48;69;93]);
   ([91;48;101;43;93]);
   ([91;48;101;93]);
   ([91;49;46;48;101;43;93]);
   ([91;49;46;48;101;45;93]);
   ([91;49;46;48;101;93]);
   ([91;49;32;48;48;48;46;48;93]);
   ([91;49;101;69;50;93]);
   ([91;50;46;101;43;51;93]);
   ([91;50;46;101;45;51;93]);
   ([91;50;46;101;51;93]);
   ([91;57;46;101;43;93]);
   ([91;73;110;102;93]);
   ([91;78;97;78;93]);
   ([91;239;188;145;93]);
   ([91;49;43;50;93]);
   ([91;48;120;49;93]);
   ([91;48;120;52;50;93]);
   ([91;73;110;102;105;110;105;116;121;93]);
   ([91;48;101;43;45;49;93]);
   ([91;45;49;50;51;46;49;50;51;102;111;111;93]);
   ([91;49;50;51;229;93]);
   ([91;49;101;49;229;93]);
   ([91;48;229;93;10]);
   ([91;45;73;110;102;105;110;105;116;121;93]);
   ([91;45;102;111;111;93]);
   ([91;45;32;49;93]);
   ([91;45;48;49;50;93]);
   ([91;45;46;49;50;51;93]);
   ([91;45;49;120;93]);
   ([91;49;101;97;93]);
   ([91;49;101;229;93]);
   ([91;49;46;93]);
   ([91;46;49;50;51;93]);
   ([91;49;46;50;97;45;51;93]);
   ([91;49;46;56;48;49;49;54;55;48;48;51;51;51;55;54;53;49;52;72;45;51;48;56;93]);
   ([91;48;49;50;93]);
   ([91;34;120;34;44;32;116;114;117;116;104;93]);
   ([123;91;58;32;34;120;34;125;10]);
   ([123;34;120;34;44;32;110;117;108;108;125]);
   ([123;34;120;34;58;58;34;98;34;125]);
   ([123;240;159;135;168;240;159;135;173;125]);
   ([123;34;97;34;58;34;97;34;32;49;50;51;125]);
   ([123;107;101;121;58;32;39;118;97;108;117;101;39;125]);
   ([123;34;185;34;58;34;48;34;44;125]);
   ([123;34;97;34;32;98;125]);
   ([123;58;34;98;34;125]);
   ([123;34;97;34;32;34;98;34;125]);
   ([123;34;97;34;58]);
   ([123;34;97;34]);
   ([123;49;58;49;125]);
   ([123;57;57;57;57;69;57;57;57;57;58;49;125]);
   ([123;110;117;108;108;58;110;117;108;108;44;110;117;108;108;58;110;117;108;108;125]);
   ([123;34;105;100;34;58;48;44;44;44;44;44;125]);
   ([123;39;97;39;58;48;125]);
   ([123;34;105;100;34;58;48;44;125]);
   ([123;34;97;34;58;34;98;34;125;47;42;42;47]);
   ([123;34;97;34;58;34;98;34;125;47;42;42;47;47]);
   ([123;34;97;34;58;34;98;34;125;47;47]);
   ([123;34;97;34;58;34;98;34;125;47]);
   ([123;34;97;34;58;34;98;34;44;44;34;99;34;58;34;100;34;125]);
   ([123;97;58;32;34;98;34;125]);
   ([123;34;97;34;58;34;97]);
   ([123;32;34;102;111;111;34;32;58;32;34;98;97;114;34;44;32;34;97;34;32;125]);
   ([123;34;97;34;58;34;98;34;125;35]);
   ([32]);
   ([91;34;92;117;68;56;48;48;92;34;93]);
   ([91;34;92;117;68;56;48;48;92;117;34;93]);
   ([91;34;92;117;68;56;48;48;92;117;49;34;93]);
   ([91;34;92;117;68;56;48;48;92;117;49;120;34;93]);
   ([91;195;169;93]);
   ([91;34;92;0;34;93]);
   ([91;34;92;120;48;48;34;93]);
   ([91;34;92;92;92;34;93]);
   ([91;34;92;9;34;93]);
   ([91;34;92;240;159;140;128;34;93]);
   ([91;34;92;34;93]);
   ([91;34;92;117;48;48;65;34;93]);
   ([91;34;92;117;68;56;51;52;92;117;68;100;34;93]);
   ([91;34;92;117;68;56;48;48;92;117;68;56;48;48;92;120;34;93]);
   ([91;34;92;117;229;34;93]);
   ([91;34;92;97;34;93]);
   ([91;34;92;117;113;113;113;113;34;93]);
   ([91;34;92;229;34;93]);
   ([91;92;117;48;48;50;48;34;97;115;100;34;93]);
   ([91;92;110;93]);
   ([34]);
   ([91;39;115;105;110;103;108;101;32;113;117;111;116;101;39;93]);
   ([97;98;99]);
   ([91;34;92]);
   ([91;34;97;0;97;34;93]);
   ([91;34;110;101;119;10;108;105;110;101;34;93]);
   ([91;34;9;34;93]);
   ([34;92;85;65;54;54;68;34]);
   ([34;34;120]);
   (many 100000 [91]);
   ([91;226;129;160;93]);
   ([239;187;191]);
   ([60;46;62]);
   ([91;60;110;117;108;108;62;93]);
   ([91;49;93;120]);
   ([91;49;93;93]);
   ([91;34;97;115;100;93]);
   ([97;195;165]);
   ([91;84;114;117;101;93]);
   ([49;93]);
   ([123;34;120;34;58;32;116;114;117;101;44]);
   ([91;93;91;93]);
   ([93]);
   ([239;187;123;125]);
   ([229]);
   ([91]);
   ([]);
   ([91;0;93]);
   ([50;64]);
   ([123;125;125]);
   ([123;34;34;58]);
   ([123;34;97;34;58;47;42;99;111;109;109;101;110;116;42;47;34;98;34;125]);
   ([123;34;97;34;58;32;116;114;117;101;125;32;34;120;34]);
   ([91;39]);
   ([91;44]);
   (many 50000 [91;123;34;34;58] ++ [10]);
   ([91;123]);
   ([91;34;97]);
   ([91;34;97;34]);
   ([123]);
   ([123;93]);
   ([123;44]);
   ([123;91]);
   ([123;34;97]);
   ([123;39;97;39]);
   ([91;34;92;123;91;34;92;123;91;34;92;123;91;34;92;123]);
   ([233]);
   ([42]);
   ([123;34;97;34;58;34;98;34;125;35;123;125]);
   ([91;92;117;48;48;48;65;34;34;93]);
   ([91;49]);
   ([91;32;102;97;108;115;101;44;32;110;117;108]);
   ([91;32;116;114;117;101;44;32;102;97;108;115]);
   ([91;32;102;97;108;115;101;44;32;116;114;117]);
   ([123;34;97;115;100;34;58;34;97;115;100;34]);
   ([195;165]);
   ([91;226;129;160;93]);
   ([91;12;93])].

Example JSONTestSuite_n :
  forallb (fun s => all_widths (fun pw => is_err (validate_json_bytes pw s))) suite_n = true.
Proof. vm_compute. reflexivity. Qed.

(** /repo/tests/JSONTestSuite/i_*.json (35 files), tests/jsontestsuite.rs. *)
Definition suite_i : list (list N) :=
  [([91;49;50;51;46;52;53;54;101;45;55;56;57;93]);
   ([91;48;46;52;101;48;48;54;54;57;57;57;57;57;57;57;57;57;57;57;57;57;57;57;57;57;57;57;57;57;57;57;57;57;57;57;57;57;57;57;57;57;57;57;57;57;57;57;57;57;57;57;57;57;57;57;57;57;57;57;57;57;57;57;57;57;57;57;57;57;57;57;57;57;57;57;57;57;57;57;57;57;57;57;57;57;57;57;57;57;57;57;57;57;57;57;57;57;57;57;57;57;57;57;57;57;57;57;57;57;57;57;57;57;57;57;57;57;57;57;57;57;57;57;57;54;57;57;57;57;57;57;57;48;48;54;93]);
   ([91;45;49;101;43;57;57;57;57;93]);
   ([91;49;46;53;101;43;57;57;57;57;93]);
   ([91;45;49;50;51;49;50;51;101;49;48;48;48;48;48;93]);
   ([91;49;50;51;49;50;51;101;49;48;48;48;48;48;93]);
   ([91;49;50;51;101;45;49;48;48;48;48;48;48;48;93]);
   ([91;45;49;50;51;49;50;51;49;50;51;49;50;51;49;50;51;49;50;51;49;50;51;49;50;51;49;50;51;49;50;51;93]);
   ([91;49;48;48;48;48;48;48;48;48;48;48;48;48;48;48;48;48;48;48;48;48;93]);
   ([91;45;50;51;55;52;54;50;51;55;52;54;55;51;50;55;54;56;57;52;50;55;57;56;51;50;55;52;57;56;51;50;52;50;51;52;55;57;56;50;51;50;52;54;51;50;55;56;52;54;93]);
   ([123;34;92;117;68;70;65;65;34;58;48;125]);
   ([91;34;92;117;68;65;68;65;34;93]);
   ([91;34;92;117;68;56;56;56;92;117;49;50;51;52;34;93]);
   ([255;254;91;0;34;0;233;0;34;0;93;0]);
   ([91;34;230;151;165;209;136;250;34;93]);
   ([91;34;237;160;128;34;93]);
   ([91;34;92;117;68;56;48;48;92;110;34;93]);
   ([91;34;92;117;68;100;49;101;97;34;93]);
   ([91;34;92;117;68;56;48;48;92;117;68;56;48;48;92;110;34;93]);
   ([91;34;92;117;100;56;48;48;34;93]);
   ([91;34;92;117;100;56;48;48;97;98;99;34;93]);
   ([91;34;255;34;93]);
   ([91;34;92;117;68;100;49;101;92;117;68;56;51;52;34;93]);
   ([91;34;233;34;93]);
   ([91;34;92;117;68;70;65;65;34;93]);
   ([91;34;129;34;93]);
   ([91;34;244;191;191;191;34;93]);
   ([91;34;192;175;34;93]);
   ([91;34;252;131;191;191;191;191;34;93]);
   ([91;34;252;128;128;128;128;128;34;93]);
   ([91;34;224;255;34;93]);
   ([0;91;0;34;0;233;0;34;0;93]);
   ([91;0;34;0;233;0;34;0;93;0]);
   ([91;91;91;91;91;91;91;91;91;91;91;91;91;91;91;91;91;91;91;91;91;91;91;91;91;91;91;91;91;91;91;91;91;91;91;91;91;91;91;91;91;91;91;91;91;91;91;91;91;91;91;91;91;91;91;91;91;91;91;91;91;91;91;91;91;91;91;91;91;91;91;91;91;91;91;91;91;91;91;91;91;91;91;91;91;91;91;91;91;91;91;91;91;91;91;91;91;91;91;91;91;91;91;91;91;91;91;91;91;91;91;91;91;91;91;91;91;91;91;91;91;91;91;91;91;91;91;91;91;91;91;91;91;91;91;91;91;91;91;91;91;91;91;91;91;91;91;91;91;91;91;91;91;91;91;91;91;91;91;91;91;91;91;91;91;91;91;91;91;91;91;91;91;91;91;91;91;91;91;91;91;91;91;91;91;91;91;91;91;91;91;91;91;91;91;91;91;91;91;91;91;91;91;91;91;91;91;91;91;91;91;91;91;91;91;91;91;91;91;91;91;91;91;91;91;91;91;91;91;91;91;91;91;91;91;91;91;91;91;91;91;91;91;91;91;91;91;91;91;91;91;91;91;91;91;91;91;91;91;91;91;91;91;91;91;91;91;91;91;91;91;91;91;91;91;91;91;91;91;91;91;91;91;91;91;91;91;91;91;91;91;91;91;91;91;91;91;91;91;91;91;91;91;91;91;91;91;91;91;91;91;91;91;91;91;91;91;91;91;91;91;91;91;91;91;91;91;91;91;91;91;91;91;91;91;91;91;91;91;91;91;91;91;91;91;91;91;91;91;91;91;91;91;91;91;91;91;91;91;91;91;91;91;91;91;91;91;91;91;91;91;91;91;91;91;91;91;91;91;91;91;91;91;91;91;91;91;91;91;91;91;91;91;91;91;91;91;91;91;91;91;91;91;91;91;91;91;91;91;91;91;91;91;91;91;91;91;91;91;91;91;91;91;91;91;91;91;91;91;91;91;91;91;91;91;91;91;91;91;91;91;91;91;91;91;91;91;91;91;91;91;91;91;91;91;91;91;91;91;91;91;91;91;91;91;91;91;91;91;91;91;91;91;91;91;91;91;91;91;91;91;91;91;91;91;91;91;91;91;91;91;91;91;91;91;91;91;91;91;91;93;93;93;93;93;93;93;93;93;93;93;93;93;93;93;93;93;93;93;93;93;93;93;93;93;93;93;93;93;93;93;93;93;93;93;93;93;93;93;93;93;93;93;93;93;93;93;93;93;93;93;93;93;93;93;93;93;93;93;93;93;93;93;93;93;93;93;93;93;93;93;93;93;93;93;93;93;93;93;93;93;93;93;93;93;93;93;93;93;93;93;93;93;93;93;93;93;93;93;93;93;93;93;93;93;93;93;93;93;93;93;93;93;93;93;93;93;93;93;93;93;93;93;93;93;93;93;93;93;93;93;93;93;93;93;93;93;93;93;93;93;93;93;93;93;93;93;93;93;93;93;93;93;93;93;93;93;93;93;93;93;93;93;93;93;93;93;93;93;93;93;93;93;93;93;93;93;93;93;93;93;93;93;93;93;93;93;93;93;93;93;93;93;93;93;93;93;93;93;93;93;93;93;93;93;93;93;93;93;93;93;93;93;93;93;93;93;93;93;93;93;93;93;93;93;93;93;93;93;93;93;93;93;93;93;93;93;93;93;93;93;93;93;93;93;93;93;93;93;93;93;93;93;93;93;93;93;93;93;93;93;93;93;93;93;93;93;93;93;93;93;93;93;93;93;93;93;93;93;93;93;93;93;93;93;93;93;93;93;93;93;93;93;93;93;93;93;93;93;93;93;93;93;93;93;93;93;93;93;93;93;93;93;93;93;93;93;93;93;93;93;93;93;93;93;93;93;93;93;93;93;93;93;93;93;93;93;93;93;93;93;93;93;93;93;93;93;93;93;93;93;93;93;93;93;93;93;93;93;93;93;93;93;93;93;93;93;93;93;93;93;93;93;93;93;93;93;93;93;93;93;93;93;93;93;93;93;93;93;93;93;93;93;93;93;93;93;93;93;93;93;93;93;93;93;93;93;93;93;93;93;93;93;93;93;93;93;93;93;93;93;93;93;93;93;93;93;93;93;93;93;93;93;93;93;93;93;93;93;93;93;93;93;93;93;93;93;93;93;93;93;93;93;93;93;93;93;93;93;93;93;93;93;93;93;93;93;93;93;93;93;93;93;93;93;93;93;93;93;93;93;93;93;93;93;93;93;93;93;93;93;93;93;93;93;93;93;93;93;93]);
   ([239;187;191;123;125])].

Example JSONTestSuite_i :
  forallb (fun s => all_widths (fun pw => no_fault (validate_json_bytes pw s))) suite_i = true.
Proof. vm_compute. reflexivity. Qed.

(** /repo/tests/jsonorg/pass*.json (3 files), tests/jsonorg.rs. *)
Definition org_pass : list (list N) :=
  [([91;10;32;32;32;32;34;74;83;79;78;32;84;101;115;116;32;80;97;116;116;101;114;110;32;112;97;115;115;49;34;44;10;32;32;32;32;123;34;111;98;106;101;99;116;32;119;105;116;104;32;49;32;109;101;109;98;101;114;34;58;91;34;97;114;114;97;121;32;119;105;116;104;32;49;32;101;108;101;109;101;110;116;34;93;125;44;10;32;32;32;32;123;125;44;10;32;32;32;32;91;93;44;10;32;32;32;32;45;52;50;44;10;32;32;32;32;116;114;117;101;44;10;32;32;32;32;102;97;108;115;101;44;10;32;32;32;32;110;117;108;108;44;10;32;32;32;32;123;10;32;32;32;32;32;32;32;32;34;105;110;116;101;103;101;114;34;58;32;49;50;51;52;53;54;55;56;57;48;44;10;32;32;32;32;32;32;32;32;34;114;101;97;108;34;58;32;45;57;56;55;54;46;53;52;51;50;49;48;44;10;32;32;32;32;32;32;32;32;34;101;34;58;32;48;46;49;50;51;52;53;54;55;56;57;101;45;49;50;44;10;32;32;32;32;32;32;32;32;34;69;34;58;32;49;46;50;51;52;53;54;55;56;57;48;69;43;51;52;44;10;32;32;32;32;32;32;32;32;34;34;58;32;32;50;51;52;53;54;55;56;57;48;49;50;69;54;54;44;10;32;32;32;32;32;32;32;32;34;122;101;114;111;34;58;32;48;44;10;32;32;32;32;32;32;32;32;34;111;110;101;34;58;32;49;44;10;32;32;32;32;32;32;32;32;34;115;112;97;99;101;34;58;32;34;32;34;44;10;32;32;32;32;32;32;32;32;34;113;117;111;116;101;34;58;32;34;92;34;34;44;10;32;32;32;32;32;32;32;32;34;98;97;99;107;115;108;97;115;104;34;58;32;34;92;92;34;44;10;32;32;32;32;32;32;32;32;34;99;111;110;116;114;111;108;115;34;58;32;34;92;98;92;102;92;110;92;114;92;116;34;44;10;32;32;32;32;32;32;32;32;34;115;108;97;115;104;34;58;32;34;47;32;38;32;92;47;34;44;10;32;32;32;32;32;32;32;32;34;97;108;112;104;97;34;58;32;34;97;98;99;100;101;102;103;104;105;106;107;108;109;110;111;112;113;114;115;116;117;118;119;121;122;34;44;10;32;32;32;32;32;32;32;32;34;65;76;80;72;65;34;58;32;34;65;66;67;68;69;70;71;72;73;74;75;76;77;78;79;80;81;82;83;84;85;86;87;89;90;34;44;10;32;32;32;32;32;32;32;32;34;100;105;103;105;116;34;58;32;34;48;49;50;51;52;53;54;55;56;57;34;44;10;32;32;32;32;32;32;32;32;34;48;49;50;51;52;53;54;55;56;57;34;58;32;34;100;105;103;105;116;34;44;10;32;32;32;32;32;32;32;32;34;115;112;101;99;105;97;108;34;58;32;34;96;49;126;33;64;35;36;37;94;38;42;40;41;95;43;45;61;123;39;58;91;44;93;125;124;59;46;60;47;62;63;34;44;10;32;32;32;32;32;32;32;32;34;104;101;120;34;58;32;34;92;117;48;49;50;51;92;117;52;53;54;55;92;117;56;57;65;66;92;117;67;68;69;70;92;117;97;98;99;100;92;117;101;102;52;65;34;44;10;32;32;32;32;32;32;32;32;34;116;114;117;101;34;58;32;116;114;117;101;44;10;32;32;32;32;32;32;32;32;34;102;97;108;115;101;34;58;32;102;97;108;115;101;44;10;32;32;32;32;32;32;32;32;34;110;117;108;108;34;58;32;110;117;108;108;44;10;32;32;32;32;32;32;32;32;34;97;114;114;97;121;34;58;91;32;32;93;44;10;32;32;32;32;32;32;32;32;34;111;98;106;101;99;116;34;58;123;32;32;125;44;10;32;32;32;32;32;32;32;32;34;97;100;100;114;101;115;115;34;58;32;34;53;48;32;83;116;46;32;74;97;109;101;115;32;83;116;114;101;101;116;34;44;10;32;32;32;32;32;32;32;32;34;117;114;108;34;58;32;34;104;116;116;112;58;47;47;119;119;119;46;74;83;79;78;46;111;114;103;47;34;44;10;32;32;32;32;32;32;32;32;34;99;111;109;109;101;110;116;34;58;32;34;47;47;32;47;42;32;60;33;45;45;32;45;45;34;44;10;32;32;32;32;32;32;32;32;34;35;32;45;45;32;45;45;62;32;42;47;34;58;32;34;32;34;44;10;32;32;32;32;32;32;32;32;34;32;115;32;112;32;97;32;99;32;101;32;100;32;34;32;58;91;49;44;50;32;44;32;51;10;10;44;10;10;52;32;44;32;53;32;32;32;32;32;32;32;32;44;32;32;32;32;32;32;32;32;32;32;54;32;32;32;32;32;32;32;32;32;32;32;44;55;32;32;32;32;32;32;32;32;93;44;34;99;111;109;112;97;99;116;34;58;91;49;44;50;44;51;44;52;44;53;44;54;44;55;93;44;10;32;32;32;32;32;32;32;32;34;106;115;111;110;116;101;120;116;34;58;32;34;123;92;34;111;98;106;101;99;116;32;119;105;116;104;32;49;32;109;101;109;98;101;114;92;34;58;91;92;34;97;114;114;97;121;32;119;105;116;104;32;49;32;101;108;101;109;101;110;116;92;34;93;125;34;44;10;32;32;32;32;32;32;32;32;34;113;117;111;116;101;115;34;58;32;34;38;35;51;52;59;32;92;117;48;48;50;50;32;37;50;50;32;48;120;50;50;32;48;51;52;32;38;35;120;50;50;59;34;44;10;32;32;32;32;32;32;32;32;34;92;47;92;92;92;34;92;117;67;65;70;69;92;117;66;65;66;69;92;117;65;66;57;56;92;117;70;67;68;69;92;117;98;99;100;97;92;117;101;102;52;65;92;98;92;102;92;110;92;114;92;116;96;49;126;33;64;35;36;37;94;38;42;40;41;95;43;45;61;91;93;123;125;124;59;58;39;44;46;47;60;62;63;34;10;58;32;34;65;32;107;101;121;32;99;97;110;32;98;101;32;97;110;121;32;115;116;114;105;110;103;34;10;32;32;32;32;125;44;10;32;32;32;32;48;46;53;32;44;57;56;46;54;10;44;10;57;57;46;52;52;10;44;10;10;49;48;54;54;44;10;49;101;49;44;10;48;46;49;101;49;44;10;49;101;45;49;44;10;49;101;48;48;44;50;101;43;48;48;44;50;101;45;48;48;10;44;34;114;111;115;101;98;117;100;34;93]);
   ([91;91;91;91;91;91;91;91;91;91;91;91;91;91;91;91;91;91;91;34;78;111;116;32;116;111;111;32;100;101;101;112;34;93;93;93;93;93;93;93;93;93;93;93;93;93;93;93;93;93;93;93]);
   ([123;10;32;32;32;32;34;74;83;79;78;32;84;101;115;116;32;80;97;116;116;101;114;110;32;112;97;115;115;51;34;58;32;123;10;32;32;32;32;32;32;32;32;34;84;104;101;32;111;117;116;101;114;109;111;115;116;32;118;97;108;117;101;34;58;32;34;109;117;115;116;32;98;101;32;97;110;32;111;98;106;101;99;116;32;111;114;32;97;114;114;97;121;46;34;44;10;32;32;32;32;32;32;32;32;34;73;110;32;116;104;105;115;32;116;101;115;116;34;58;32;34;73;116;32;105;115;32;97;110;32;111;98;106;101;99;116;46;34;10;32;32;32;32;125;10;125;10])].

Example jsonorg_pass :
  forallb (fun s => all_widths (fun pw =>
    let c := with_recursion_limit config_strict 19 in
    utf8_valid s && is_ok (validate_json_bytes_with_config pw s c)
    && is_ok (validate_json_with_config pw s c)
    && is_ok (value_from_json_bytes_with_config pw s c)
    && is_ok (value_from_json_with_config pw s c)
    && is_ok (document_from_json_bytes_with_config pw None s c)
    && is_ok (document_from_json_with_config pw None s c))) org_pass = true.
Proof. vm_compute. reflexivity. Qed.

(** /repo/tests/jsonorg/fail*.json (33 files), tests/jsonorg.rs. *)
Definition org_fail : list (list N) :=
  [([34;65;32;74;83;79;78;32;112;97;121;108;111;97;100;32;115;104;111;117;108;100;32;98;101;32;97;110;32;111;98;106;101;99;116;32;111;114;32;97;114;114;97;121;44;32;110;111;116;32;97;32;115;116;114;105;110;103;46;34]);
   ([123;34;69;120;116;114;97;32;118;97;108;117;101;32;97;102;116;101;114;32;99;108;111;115;101;34;58;32;116;114;117;101;125;32;34;109;105;115;112;108;97;99;101;100;32;113;117;111;116;101;100;32;118;97;108;117;101;34]);
   ([123;34;73;108;108;101;103;97;108;32;101;120;112;114;101;115;115;105;111;110;34;58;32;49;32;43;32;50;125]);
   ([123;34;73;108;108;101;103;97;108;32;105;110;118;111;99;97;116;105;111;110;34;58;32;97;108;101;114;116;40;41;125]);
   ([123;34;78;117;109;98;101;114;115;32;99;97;110;110;111;116;32;104;97;118;101;32;108;101;97;100;105;110;103;32;122;101;114;111;101;115;34;58;32;48;49;51;125]);
   ([123;34;78;117;109;98;101;114;115;32;99;97;110;110;111;116;32;98;101;32;104;101;120;34;58;32;48;120;49;52;125]);
   ([91;34;73;108;108;101;103;97;108;32;98;97;99;107;115;108;97;115;104;32;101;115;99;97;112;101;58;32;92;120;49;53;34;93]);
   ([91;92;110;97;107;101;100;93]);
   ([91;34;73;108;108;101;103;97;108;32;98;97;99;107;115;108;97;115;104;32;101;115;99;97;112;101;58;32;92;48;49;55;34;93]);
   ([91;91;91;91;91;91;91;91;91;91;91;91;91;91;91;91;91;91;91;91;34;84;111;111;32;100;101;101;112;34;93;93;93;93;93;93;93;93;93;93;93;93;93;93;93;93;93;93;93;93]);
   ([123;34;77;105;115;115;105;110;103;32;99;111;108;111;110;34;32;110;117;108;108;125]);
   ([91;34;85;110;99;108;111;115;101;100;32;97;114;114;97;121;34]);
   ([123;34;68;111;117;98;108;101;32;99;111;108;111;110;34;58;58;32;110;117;108;108;125]);
   ([123;34;67;111;109;109;97;32;105;110;115;116;101;97;100;32;111;102;32;99;111;108;111;110;34;44;32;110;117;108;108;125]);
   ([91;34;67;111;108;111;110;32;105;110;115;116;101;97;100;32;111;102;32;99;111;109;109;97;34;58;32;102;97;108;115;101;93]);
   ([91;34;66;97;100;32;118;97;108;117;101;34;44;32;116;114;117;116;104;93]);
   ([91;39;115;105;110;103;108;101;32;113;117;111;116;101;39;93]);
   ([91;34;9;116;97;98;9;99;104;97;114;97;99;116;101;114;9;105;110;9;115;116;114;105;110;103;9;34;93]);
   ([91;34;116;97;98;92;32;32;32;99;104;97;114;97;99;116;101;114;92;32;32;32;105;110;92;32;32;115;116;114;105;110;103;92;32;32;34;93]);
   ([91;34;108;105;110;101;10;98;114;101;97;107;34;93]);
   ([91;34;108;105;110;101;92;10;98;114;101;97;107;34;93]);
   ([91;48;101;93]);
   ([123;117;110;113;117;111;116;101;100;95;107;101;121;58;32;34;107;101;121;115;32;109;117;115;116;32;98;101;32;113;117;111;116;101;100;34;125]);
   ([91;48;101;43;93]);
   ([91;48;101;43;45;49;93]);
   ([123;34;67;111;109;109;97;32;105;110;115;116;101;97;100;32;105;102;32;99;108;111;115;105;110;103;32;98;114;97;99;101;34;58;32;116;114;117;101;44]);
   ([91;34;109;105;115;109;97;116;99;104;34;125]);
   ([91;34;101;120;116;114;97;32;99;111;109;109;97;34;44;93]);
   ([91;34;100;111;117;98;108;101;32;101;120;116;114;97;32;99;111;109;109;97;34;44;44;93]);
   ([91;32;32;32;44;32;34;60;45;45;32;109;105;115;115;105;110;103;32;118;97;108;117;101;34;93]);
   ([91;34;67;111;109;109;97;32;97;102;116;101;114;32;116;104;101;32;99;108;111;115;101;34;93;44]);
   ([91;34;69;120;116;114;97;32;99;108;111;115;101;34;93;93]);
   ([123;34;69;120;116;114;97;32;99;111;109;109;97;34;58;32;116;114;117;101;44;125])].

Example jsonorg_fail :
  forallb (fun s => all_widths (fun pw =>
    let c := with_recursion_limit config_strict 19 in
    utf8_valid s && is_err (validate_json_bytes_with_config pw s c)
    && is_err (validate_json_with_config pw s c)
    && is_err (value_from_json_bytes_with_config pw s c)
    && is_err (value_from_json_with_config pw s c)
    && is_err (document_from_json_bytes_with_config pw None s c)
    && is_err (document_from_json_with_config pw None s c))) org_fail = true.
Proof. vm_compute. reflexivity. Qed.

(** /repo/tests/roundtrip/*.json (27 files), tests/roundtrip.rs. *)
Definition roundtrips : list (list N) :=
  [([91;110;117;108;108;93]);
   ([91;116;114;117;101;93]);
   ([91;102;97;108;115;101;93]);
   ([91;48;93]);
   ([91;34;102;111;111;34;93]);
   ([91;93]);
   ([123;125]);
   ([91;48;44;49;93]);
   ([123;34;102;111;111;34;58;34;98;97;114;34;125]);
   ([123;34;97;34;58;110;117;108;108;44;34;102;111;111;34;58;34;98;97;114;34;125]);
   ([91;45;49;93]);
   ([91;45;50;49;52;55;52;56;51;54;52;56;93]);
   ([91;45;49;50;51;52;53;54;55;56;57;48;49;50;51;52;53;54;55;56;57;93]);
   ([91;45;57;50;50;51;51;55;50;48;51;54;56;53;52;55;55;53;56;48;56;93]);
   ([91;49;93]);
   ([91;50;49;52;55;52;56;51;54;52;55;93]);
   ([91;52;50;57;52;57;54;55;50;57;53;93]);
   ([91;49;50;51;52;53;54;55;56;57;48;49;50;51;52;53;54;55;56;57;93]);
   ([91;57;50;50;51;51;55;50;48;51;54;56;53;52;55;55;53;56;48;55;93]);
   ([91;48;46;48;93]);
   ([91;45;48;46;48;93]);
   ([91;49;46;50;51;52;53;93]);
   ([91;45;49;46;50;51;52;53;93]);
   ([91;53;101;45;51;50;52;93]);
   ([91;50;46;50;50;53;48;55;51;56;53;56;53;48;55;50;48;49;101;45;51;48;56;93]);
   ([91;50;46;50;50;53;48;55;51;56;53;56;53;48;55;50;48;49;52;101;45;51;48;56;93]);
   ([91;49;46;55;57;55;54;57;51;49;51;52;56;54;50;51;49;53;55;101;51;48;56;93])].

Example roundtrip_suite :
  forallb (fun s => all_widths (fun pw =>
    match value_from_json_bytes pw s, document_from_json_bytes pw None s with
    | Ok v, Ok doc =>
        match to_json pw v, value_from_document doc with
        | Ok out, Ok v' =>
            bytes_eqb out s && match value_eq pw v' v with Ok b => b | _ => false end
        | _, _ => false
        end
    | _, _ => false
    end)) roundtrips = true.
Proof. vm_compute. reflexivity. Qed.

(** * The unit tests of src/ *)

Definition oks {E A} (r : res E A) (f : A -> bool) : bool := match r with Ok a => f a | _ => false end.
Definition yes (r : res infallible bool) : bool := oks r (fun b => b).
Definition no (r : res infallible bool) : bool := oks r negb.
Definition somes {A} (o : option A) (f : A -> bool) : bool := match o with Some a => f a | None => false end.
Definition none {A} (o : option A) : bool := match o with Some _ => false | None => true end.

(** src/tests.rs [test_json_parse]; the expected value may itself need a parse. *)
Definition test_json_parse (source : list N) (expected : pwidth -> res infallible value) : bool :=
  all_widths (fun pw =>
    oks (value_from_json_bytes pw source) (fun v =>
    oks (expected pw) (fun w =>
    yes (value_eq pw v w)
    && oks (document_from_json_bytes pw None source) (fun doc =>
       oks (value_from_document doc) (fun v' => yes (value_eq pw v' v)))))).

(** [JsonString::from_json(..).unwrap()], [JsonNumber { source: Borrowed(..) }],
    [JsonString { source: Json(Borrowed(..)), info: JsonStringInfo::new(..) }]. *)
Definition unwrap {E A} (r : res E A) : res infallible A :=
  match r with Ok a => Ok a | Err _ => Fault FExpect | Fault f => Fault f end.
Definition parsed_str (pw : pwidth) (s : list N) : res infallible json_string := unwrap (string_from_json pw s).
Definition num (s : list N) : value := VNumber (JNum (Borrowed s)).
Definition jstr_new (pw : pwidth) (s : list N) (e : bool) (n : N) : json_string :=
  JStr (CJson (Borrowed s)) (info_new pw e n).

Example t_keywords :
  test_json_parse [116;114;117;101] (fun _ => Ok (value_from_bool true))
  && test_json_parse [102;97;108;115;101] (fun _ => Ok (value_from_bool false))
  && test_json_parse [110;117;108;108] (fun _ => Ok VNull) = true.
Proof. vm_compute. reflexivity. Qed.

Example t_arrays :
  test_json_parse [91;93] (fun _ => Ok (VArray []))
  && test_json_parse [91;116;114;117;101;93] (fun _ => Ok (VArray [VBoolean true]))
  && test_json_parse [91;116;114;117;101;44;102;97;108;115;101;93] (fun _ => Ok (VArray [VBoolean true; VBoolean false]))
  && test_json_parse [32;91;32;116;114;117;101;32;44;32;102;97;108;115;101;32;93;32] (fun _ => Ok (VArray [VBoolean true; VBoolean false]))
  && test_json_parse [32;9;10;13;110;117;108;108] (fun _ => Ok VNull) = true.
Proof. vm_compute. reflexivity. Qed.

Example t_strings :
  test_json_parse [34;104;101;108;108;111;34] (fun pw => Ok (VString (jstr_new pw [104;101;108;108;111] false 5)))
  && test_json_parse [34;34] (fun pw => Ok (VString (jstr_new pw [] false 0)))
  && test_json_parse [34;92;34;92;92;92;47;92;98;92;102;92;110;92;114;92;116;92;117;50;53;101;70;34]
       (fun pw => Ok (VString (jstr_new pw [92;34;92;92;92;47;92;98;92;102;92;110;92;114;92;116;92;117;50;53;101;70] true 11)))
  && test_json_parse [34;92;117;100;56;51;100;92;117;100;101;51;57;92;117;100;56;51;100;92;117;100;99;56;100;34]
       (fun pw => let? s := parsed_str pw [34;240;159;152;185;240;159;146;141;34] in Ok (VString s))
  && all_widths (fun pw => oks (parsed_str pw [34;92;117;100;56;51;100;92;117;100;101;51;57;92;117;100;56;51;100;92;117;100;99;56;100;34]) (fun s =>
       yes (js_eq_str pw s [240;159;152;185;240;159;146;141]))) = true.
Proof. vm_compute. reflexivity. Qed.

Example t_objects :
  test_json_parse [123;125] (fun _ => Ok (VObject object_new))
  && test_json_parse [123;34;104;101;108;108;111;34;58;116;114;117;101;125]
       (fun pw => Ok (VObject (object_from_iter [(jstr_new pw [104;101;108;108;111] false 5, VBoolean true)])))
  && test_json_parse [123;34;104;101;108;108;111;34;58;116;114;117;101;44;34;119;111;114;108;100;34;58;110;117;108;108;125]
       (fun pw => Ok (VObject (object_from_iter [(jstr_new pw [104;101;108;108;111] false 5, VBoolean true);
                                                 (jstr_new pw [119;111;114;108;100] false 5, VNull)])))
  && test_json_parse [32;123;32;34;104;101;108;108;111;34;32;58;32;116;114;117;101;32;44;32;34;119;111;114;108;100;34;32;58;32;110;117;108;108;32;125;32]
       (fun pw => let? h := parsed_str pw [34;104;101;108;108;111;34] in let? w := parsed_str pw [34;119;111;114;108;100;34] in
                  Ok (VObject (object_from_iter [(h, VBoolean true); (w, VNull)]))) = true.
Proof. vm_compute. reflexivity. Qed.

Example t_numbers :
  forallb (fun b => test_json_parse [b] (fun _ => Ok (num [b]))) [48;49;50;51;52;53;54;55;56;57]
  && forallb (fun s => test_json_parse s (fun _ => Ok (num s)))
       [[45;49]; [45;49;46;48]; [45;49;46;48;101;49]; [45;49;46;48;69;45;49]] = true.
Proof. vm_compute. reflexivity. Qed.

Example t_everything :
  test_json_parse [123;34;97;34;58;49;44;34;98;34;58;116;114;117;101;44;34;99;34;58;34;104;101;108;108;111;34;44;34;100;34;58;91;93;44;34;101;34;58;123;125;125]
    (fun pw =>
       let? a := parsed_str pw [34;97;34] in let? b := parsed_str pw [34;98;34] in
       let? c := parsed_str pw [34;99;34] in let? d := parsed_str pw [34;100;34] in
       let? e := parsed_str pw [34;101;34] in let? h := parsed_str pw [34;104;101;108;108;111;34] in
       Ok (VObject [(a, num [49]); (b, VBoolean true); (c, VString h); (d, VArray []); (e, VObject [])]))
  && test_json_parse [91;49;44;116;114;117;101;44;34;104;101;108;108;111;34;44;91;93;44;123;125;93]
    (fun pw => let? h := parsed_str pw [34;104;101;108;108;111;34] in
       Ok (VArray [num [49]; VBoolean true; VString h; VArray []; VObject []])) = true.
Proof. vm_compute. reflexivity. Qed.

(** src/tests.rs [assert_json_error_kind_matches!]. *)
Definition json_error (s : list N) (offset : N) (k : error_kind infallible) : Prop :=
  value_from_json W64 s = Err (Error (N.to_nat offset) k) /\ value_from_json W32 s = Err (Error (N.to_nat offset) k).

Example t_object_errors :
  json_error [123;49;58;116;114;117;101;125] 1 KObjectKeysMustBeStrings
  /\ json_error [123;34;97;34;58;32;116;114;117;101;44;125] 11 KIllegalTrailingComma
  /\ json_error [123;34;97;34;58;32;116;114;117;101;44;58] 11 KExpectedObjectKey
  /\ json_error [123;34;97;34;125] 4 KExpectedColon
  /\ json_error [123;34;97;34] 4 KExpectedColon
  /\ json_error [123;34;97;34;58;125] 5 (KUnexpected 125)
  /\ json_error [123;34;97;34;58;49;93] 6 KExpectedCommaOrEndOfObject
  /\ json_error [123;34;97;34;58;32;116;114;117;101;44] 11 KUnclosedObject.
Proof. vm_compute. repeat split; reflexivity. Qed.

Example t_array_errors :
  json_error [91;49;44;93] 3 KIllegalTrailingComma
  /\ json_error [91;49;125] 2 KExpectedCommaOrEndOfArray
  /\ json_error [91;49;44;44;125] 3 (KUnexpected 44)
  /\ json_error [91;49;44] 3 KUnclosedArray
  /\ json_error [91] 1 KUnclosedArray.
Proof. vm_compute. repeat split; reflexivity. Qed.

Example t_keyword_and_json_errors :
  json_error [116;114;117;32] 3 (KUnexpected 32)
  /\ json_error [116;114;117] 3 KUnexpectedEof
  /\ json_error [116;114;117;101;32;116;114;117;101] 5 KTrailingNonWhitespace
  /\ json_error [44] 0 (KUnexpected 44)
  /\ json_error [35] 0 (KUnexpected 35)
  /\ json_error [] 0 KUnexpectedEof.
Proof. vm_compute. repeat split; reflexivity. Qed.

Example t_string_errors :
  json_error [34] 1 KUnclosedString
  /\ json_error [34;0;34] 1 (KUnexpected 0)
  /\ json_error [34;92;63] 2 KInvalidEscape
  /\ json_error [34;92;117;100;100;100;100;32] 2 KUtf8
  /\ json_error [34;92;117;100;100;97;49;32] 2 KUtf8
  /\ json_error [34;92;117;71] 3 KInvalidHexadecimal.
Proof. vm_compute. repeat split; reflexivity. Qed.
Example t_string_error_utf8 :
  match value_from_json_bytes W64 [34; 0xDD; 0xDD; 34] with Err (Error _ KUtf8) => True | _ => False end.
Proof. vm_compute. exact I. Qed.

Example t_number_errors :
  json_error [45;32] 1 KExpectedDigit
  /\ json_error [49;46;32] 2 KExpectedDecimalDigit
  /\ json_error [49;46;48;69;32] 4 KExpectedExponent
  /\ json_error [49;46;48;69;45;32] 5 KExpectedExponent
  /\ json_error [45] 1 KExpectedDigit
  /\ json_error [49;46] 2 KExpectedDecimalDigit
  /\ json_error [49;46;48;69] 4 KExpectedExponent
  /\ json_error [49;46;48;69;45] 5 KExpectedExponent.
Proof. vm_compute. repeat split; reflexivity. Qed.

(** src/tests.rs [json_formatting], [value_display]. *)
Definition prints (s : list N) (f : pwidth -> value -> res infallible (list N)) (out : list N) : bool :=
  all_widths (fun pw => oks (value_from_json pw s) (fun v => oks (f pw v) (fun o => bytes_eqb o out))).

Example t_json_formatting :
  forallb (fun s => prints s to_json s)
    [[91;49;44;116;114;117;101;44;34;104;101;108;108;111;34;44;91;93;44;123;125;93]; [123;34;97;34;58;49;44;34;98;34;58;116;114;117;101;44;34;99;34;58;34;104;101;108;108;111;34;44;34;100;34;58;91;93;44;34;101;34;58;123;125;125]; [34;92;117;48;48;48;48;34]]
  && forallb (fun s => prints s to_json_pretty s)
    [[91;10;32;32;49;44;10;32;32;116;114;117;101;44;10;32;32;34;104;101;108;108;111;34;44;10;32;32;91;93;44;10;32;32;123;125;10;93];
     [123;10;32;32;34;97;34;58;32;49;44;10;32;32;34;98;34;58;32;116;114;117;101;44;10;32;32;34;99;34;58;32;34;104;101;108;108;111;34;44;10;32;32;34;100;34;58;32;91;93;44;10;32;32;34;101;34;58;32;123;125;10;125]]
  && forallb (fun s => prints s (fun pw => to_json_pretty_custom pw [9] [13]) s)
    [[123;13;9;34;97;34;58;32;49;44;13;9;34;98;34;58;32;116;114;117;101;44;13;9;34;99;34;58;32;34;104;101;108;108;111;34;44;13;9;34;100;34;58;32;91;93;44;13;9;34;101;34;58;32;123;125;13;125]] = true.
Proof. vm_compute. reflexivity. Qed.

Example t_value_display :
  prints [123;34;97;34;58;49;44;34;98;34;58;116;114;117;101;44;34;99;34;58;34;104;101;108;108;111;34;44;34;100;34;58;91;93;44;34;101;34;58;123;125;125]
    (fun pw v => expect_fmt (value_display pw string_write false v []))
    [123;34;97;34;58;49;44;34;98;34;58;116;114;117;101;44;34;99;34;58;34;104;101;108;108;111;34;44;34;100;34;58;91;93;44;34;101;34;58;123;125;125]
  && prints [123;34;97;34;58;49;44;34;98;34;58;116;114;117;101;44;34;99;34;58;34;104;101;108;108;111;34;44;34;100;34;58;91;93;44;34;101;34;58;123;125;125]
    (fun pw v => expect_fmt (value_display pw string_write true v []))
    [123;10;32;32;34;97;34;58;32;49;44;10;32;32;34;98;34;58;32;116;114;117;101;44;10;32;32;34;99;34;58;32;34;104;101;108;108;111;34;44;10;32;32;34;100;34;58;32;91;93;44;10;32;32;34;101;34;58;32;123;125;10;125] = true.
Proof. vm_compute. reflexivity. Qed.

(** src/tests.rs [ErroringDelegate], [parse_delegate_error]. *)
Inductive error_on :=
| OnNone | OnNull | OnBoolean (b : bool) | OnNumber (s : list N) | OnString | OnBeginObject | OnObjectKey
| OnObjectValue | OnEndObject | OnBeginArray | OnArrayValue | OnEndArray.
Definition on {A} (b : bool) (r : A) : res unit A * unit := (if b then Err tt else Ok r, tt).
Definition erroring (e : error_on) : delegate := {|
  d_st := unit; d_value := value; d_object := object; d_array := list value; d_key := json_string; d_error := unit;
  d_null := fun _ => on (match e with OnNull => true | _ => false end) VNull;
  d_boolean := fun _ b => on (match e with OnBoolean c => Bool.eqb b c | _ => false end) (VBoolean b);
  d_number := fun _ n => on (match e with OnNumber s => bytes_eqb (jn_str n) s | _ => false end) (VNumber n);
  d_string := fun _ s => on (match e with OnString => true | _ => false end) (VString s);
  d_begin_object := fun _ => on (match e with OnBeginObject => true | _ => false end) [];
  d_object_key := fun _ o k => on (match e with OnObjectKey => true | _ => false end) (o, k);
  d_object_value := fun _ o k v => on (match e with OnObjectValue => true | _ => false end) (o ++ [(k, v)]);
  d_object_is_empty := fun _ o => Ok (match o with [] => true | _ => false end);
  d_end_object := fun _ o => on (match e with OnEndObject => true | _ => false end) (VObject o);
  d_begin_array := fun _ => on (match e with OnBeginArray => true | _ => false end) [];
  d_array_value := fun _ a v => on (match e with OnArrayValue => true | _ => false end) (a ++ [v]);
  d_array_is_empty := fun _ a => Ok (match a with [] => true | _ => false end);
  d_end_array := fun _ a => on (match e with OnEndArray => true | _ => false end) (VArray a);
  d_kind_of := fun _ v => Ok (value_kind v) |}.
Definition delegate_payload : list N :=
  [123;34;97;34;58;49;44;34;98;34;58;116;114;117;101;44;34;99;34;58;34;104;101;108;108;111;34;44;34;100;34;58;91;110;117;108;108;44;32;45;49;44;32;48;44;32;102;97;108;115;101;44;32;91;93;93;44;34;101;34;58;123;125;44;34;102;34;58;34;101;114;114;111;114;34;125].

Example t_parse_delegate_error :
  all_widths (fun pw =>
    is_ok (fst (parse_json_bytes_with_config pw (erroring OnNone) delegate_payload config_strict tt))
    && forallb (fun e => match fst (parse_json_bytes pw (erroring e) delegate_payload tt) with
                         | Err (Error _ (KErrorFromDelegate _)) => true | _ => false end)
         [OnNull; OnBoolean false; OnNumber [49]; OnNumber [45;49]; OnNumber [48]; OnString;
          OnBeginObject; OnObjectKey; OnObjectValue; OnEndObject; OnBeginArray; OnArrayValue; OnEndArray]) = true.
Proof. vm_compute. reflexivity. Qed.

Example t_illegal_types_at_root :
  all_widths (fun pw => forallb (fun s =>
    match document_from_json_with_config pw None s config_strict with
    | Err (Error _ KPayloadsShouldBeObjectOrArray) => true | _ => false end
    && match value_from_json_with_config pw s config_strict with
       | Err (Error _ KPayloadsShouldBeObjectOrArray) => true | _ => false end)
    [[110;117;108;108]; [116;114;117;101]; [49]; [34;34]]) = true.
Proof. vm_compute. reflexivity. Qed.

(** src/string.rs [json_string_eq]. *)
Definition j_eq_str (json s : list N) (expected : bool) : bool :=
  all_widths (fun pw => oks (parsed_str pw json) (fun j => oks (js_eq_str pw j s) (Bool.eqb expected))).
Definition jj (a b : pwidth -> res infallible json_string) (f : pwidth -> json_string -> json_string -> bool) : bool :=
  all_widths (fun pw => oks (a pw) (fun x => oks (b pw) (fun y => f pw x y))).
Definition P (s : list N) (pw : pwidth) := parsed_str pw s.
Definition F (s : list N) (pw : pwidth) := js_from_str pw s.
Definition E_q pw a b := yes (js_eq pw a b).
Definition N_q pw a b := no (js_eq pw a b).

Example t_json_string_eq :
  j_eq_str [34;72;101;108;108;111;44;32;87;111;114;108;100;33;34] [72;101;108;108;111;44;32;87;111;114;108;100;33] true
  && j_eq_str [34;92;34;92;92;92;47;92;98;92;102;92;110;92;114;92;116;92;117;50;53;101;70;34] [34;92;47;7;12;10;13;9;226;151;175] true
  && j_eq_str [34;226;151;175;34] [226;151;175] true
  && j_eq_str [34;92;110;34] [] false
  && j_eq_str [34;92;110;34] [120] false
  && j_eq_str [34;92;110;97;34] [10;120] false
  && jj (P [34;92;117;48;48;48;48;34]) (P [34;92;117;48;48;48;48;92;117;48;48;48;48;34]) N_q
  && jj (P [34;97;98;34]) (P [34;92;117;48;48;48;48;34]) N_q
  && all_widths (fun pw => oks (F [97] pw) (fun s => yes (js_eq_str pw s [97])))
  && jj (F [97]) (F [97]) E_q
  && jj (P [34;97;34]) (F [97]) E_q
  && jj (F [97]) (P [34;97;34]) E_q
  && all_widths (fun pw => oks (F [0] pw) (fun s => yes (js_eq_str pw s [0])))
  && jj (F [0]) (F [0]) E_q
  && jj (P [34;92;117;48;48;48;48;34]) (F [0]) E_q
  && jj (F [0]) (P [34;92;117;48;48;48;48;34]) E_q
  && jj (P [34;92;117;48;48;48;48;34]) (F [0; 32]) N_q
  && jj (F [0; 32]) (P [34;92;117;48;48;48;48;34]) N_q = true.
Proof. vm_compute. reflexivity. Qed.

(** src/string.rs [json_string_cmp]. *)
Definition cmp_is (c d : comparison) : bool :=
  match c, d with Lt, Lt | Eq, Eq | Gt, Gt => true | _, _ => false end.
Definition c_str (a : pwidth -> res infallible json_string) (s : list N) (c : comparison) : bool :=
  all_widths (fun pw => oks (a pw) (fun x => oks (js_partial_cmp_str pw x s) (fun o => somes o (cmp_is c)))).
Definition c_js (a b : pwidth -> res infallible json_string) (c : comparison) : bool :=
  jj a b (fun pw x y => oks (js_partial_cmp pw x y) (fun o => somes o (cmp_is c))
                        && oks (js_cmp pw x y) (cmp_is c)).

Example t_json_string_cmp :
  c_str (P [34;97;34]) [98] Lt && c_str (P [34;98;34]) [97] Gt
  && c_str (P [34;97;34]) [97] Eq && c_str (F [10]) [10] Eq
  && c_str (P [34;92;117;48;48;54;49;34]) [98] Lt && c_str (P [34;92;117;48;48;54;50;34]) [97] Gt
  && c_str (P [34;92;117;48;48;54;49;34]) [97] Eq && c_str (P [34;92;117;48;48;54;49;34]) [97;97] Lt
  && c_str (P [34;92;117;48;48;54;49;97;34]) [97] Gt
  && c_js (P [34;92;117;48;48;54;49;34]) (F [98]) Lt && c_js (P [34;92;117;48;48;54;50;34]) (F [97]) Gt
  && c_js (P [34;92;117;48;48;54;49;34]) (F [97]) Eq && c_js (P [34;92;117;48;48;54;49;34]) (F [97;97]) Lt
  && c_js (P [34;92;117;48;48;54;49;97;34]) (F [97]) Gt && c_js (F [10]) (F [10]) Eq
  && c_js (P [34;92;110;34]) (F [10;97]) Lt && c_js (F [10;97]) (P [34;92;110;34]) Gt
  && c_js (P [34;97;34]) (F [98]) Lt = true.
Proof. vm_compute. reflexivity. Qed.

(** src/string.rs [json_string_hash]: std's default hasher mixes the bytes written to it
    independently of how they were cut into calls; the bytes are compared here. *)
Example t_json_string_hash :
  jj (F [10]) (P [34;92;110;34]) (fun pw x y =>
    oks (js_hash pw x) (fun h => oks (js_hash pw y) (fun k => bytes_eqb (List.concat h) (List.concat k))))
  && all_widths (fun pw => oks (P [34;97;34] pw) (fun x =>
       oks (js_hash pw x) (fun h => bytes_eqb (List.concat h) (List.concat (str_hash [97]))))) = true.
Proof. vm_compute. reflexivity. Qed.

(** src/string.rs [display], [json_string_from_json], [as_str], [json_string_from_raw], [decode_if_needed]. *)
Definition display_is (s : res infallible json_string) (pw : pwidth) (out : list N) : bool :=
  oks s (fun x => oks (js_display pw x) (fun o => bytes_eqb o out)).
Example t_display : all_widths (fun pw => display_is (P [34;104;101;108;108;111;44;32;119;111;114;108;100;33;34] pw) pw [104;101;108;108;111;44;32;119;111;114;108;100;33]) = true.
Proof. vm_compute. reflexivity. Qed.

Example t_json_string_from_json :
  jj (P [34;72;101;108;108;111;44;32;87;111;114;108;100;33;34]) (fun pw => Ok (jstr_new pw [72;101;108;108;111;44;32;87;111;114;108;100;33] false 13)) E_q
  && all_widths (fun pw => match string_from_json pw [116;114;117;101] with
                           | Err (Error _ KExpectedString) => true | _ => false end) = true.
Proof. vm_compute. reflexivity. Qed.

Example t_as_str :
  all_widths (fun pw =>
    oks (P [34;92;110;34] pw) (fun s => none (js_as_str pw s))
    && oks (P [34;104;105;34] pw) (fun s => somes (js_as_str pw s) (bytes_eqb [104;105]))
    && oks (F [104;105] pw) (fun s => somes (js_as_str pw s) (bytes_eqb [104;105]))) = true.
Proof. vm_compute. reflexivity. Qed.

Example t_json_string_from_raw : jj (fun pw => js_from_string pw [97]) (F [97]) E_q = true.
Proof. vm_compute. reflexivity. Qed.

Definition borrowed (a : anystr) (s : list N) := match a with Borrowed b => bytes_eqb b s | Owned _ => false end.
Definition owned (a : anystr) (s : list N) := match a with Owned b => bytes_eqb b s | Borrowed _ => false end.
Example t_decode_if_needed :
  all_widths (fun pw =>
    oks (P [34;34] pw) (fun s => oks (js_decode_if_needed pw s) (fun a => borrowed a []))
    && oks (P [34;92;114;34] pw) (fun s => oks (js_decode_if_needed pw s) (fun a => owned a [13]))
    && display_is (P [34;92;114;34] pw) pw [13]
    && oks (F [114;97;119;32;115;116;114;105;110;103] pw) (fun s => oks (js_decode_if_needed pw s) (fun a => borrowed a [114;97;119;32;115;116;114;105;110;103]))
    && display_is (F [114;97;119;32;115;116;114;105;110;103] pw) pw [114;97;119;32;115;116;114;105;110;103]) = true.
Proof. vm_compute. reflexivity. Qed.

(** src/string.rs [test_string_info_debug] (the two numbers it prints), [is_empty]. *)
Example t_string_info :
  all_widths (fun pw => oks (@add_bytes_from_escape infallible pw (info_none pw) 1) (fun i =>
    has_escapes pw i && (expected_length pw i =? 1))) = true.
Proof. vm_compute. reflexivity. Qed.

Example t_is_empty :
  all_widths (fun pw =>
    oks (F [] pw) (js_is_empty pw) && oks (P [34;34] pw) (js_is_empty pw)
    && oks (F [32] pw) (fun s => negb (js_is_empty pw s))
    && oks (P [34;32;34] pw) (fun s => negb (js_is_empty pw s))) = true.
Proof. vm_compute. reflexivity. Qed.

(** src/string.rs [escape]. *)
Definition chars (r : res infallible (list N)) (out : list N) : bool :=
  oks r (fun cs => bytes_eqb (List.concat (map utf8_encode cs)) out).
Definition escape_case (mk : pwidth -> list N -> res infallible json_string) (original escaped : list N)
  (json_str : option (list N)) : bool :=
  all_widths (fun pw => oks (mk pw original) (fun raw =>
    (js_len pw raw =? N.of_nat (length escaped))
    && (js_decoded_len pw raw =? N.of_nat (length original))
    && yes (js_eq_str pw raw original)
    && chars (js_decoded pw raw) original
    && oks (js_decode_if_needed pw raw) (fun a => any_eq_str a original)
    && chars (js_as_json pw raw) escaped
    && oks (js_escape_if_needed pw raw) (fun a => any_eq_str a escaped)
    && match js_as_json_str raw, json_str with
       | None, None => true | Some a, Some s => any_eq_str a s | _, _ => false end)).
Definition esc_original := [34;92;47;7;9;10;13;12;0;226;151;175].
Definition esc_escaped := [92;34;92;92;47;92;98;92;116;92;110;92;114;92;102;92;117;48;48;48;48;226;151;175].
Example t_escape :
  escape_case js_from_str esc_original esc_escaped None
  && escape_case js_from_string esc_original esc_escaped None
  && escape_case js_from_str [104;101;108;108;111] [104;101;108;108;111] (Some [104;101;108;108;111]) = true.
Proof. vm_compute. reflexivity. Qed.

(** src/string.rs, src/number.rs [from_json_bad_types]. *)
Example t_from_json_bad_types :
  all_widths (fun pw =>
    forallb (fun s => match string_from_json pw s with Err (Error _ KExpectedString) => true | _ => false end)
      [[49]; [110;117;108;108]; [116;114;117;101]; [91;93]; [123;125]]
    && forallb (fun s => match number_from_json pw s with Err (Error _ KExpectedNumber) => true | _ => false end)
      [[34;34]; [110;117;108;108]; [116;114;117;101]; [91;93]; [123;125]]) = true.
Proof. vm_compute. reflexivity. Qed.

(** src/anystr.rs [hash], [ord]. *)
Example t_anystr :
  bytes_eqb (List.concat (any_hash (any_from_string [104;101;108;108;111]))) (List.concat (any_hash (any_from_str [104;101;108;108;111])))
  && any_eq (any_from_string [104;101;108;108;111]) (any_from_str [104;101;108;108;111])
  && bytes_eqb (List.concat (any_hash (any_from_string [104;101;108;108;111]))) (List.concat (str_hash [104;101;108;108;111]))
  && somes (any_partial_cmp_str (Borrowed [97]) [98]) (cmp_is Lt)
  && somes (any_partial_cmp (Borrowed [97]) (Borrowed [98])) (cmp_is Lt) = true.
Proof. vm_compute. reflexivity. Qed.

(** src/doc.rs [document_iteration]. *)
Example t_document_iteration :
  all_widths (fun pw =>
    let source := [123;34;97;34;58;49;44;34;98;34;58;116;114;117;101;44;34;99;34;58;34;104;101;108;108;111;34;44;34;100;34;58;91;110;117;108;108;93;44;34;101;34;58;123;125;125] in
    oks (document_from_json pw None source) (fun doc =>
    oks (P [34;97;34] pw) (fun a => oks (P [34;98;34] pw) (fun b => oks (P [34;99;34] pw) (fun c =>
    oks (P [34;104;101;108;108;111;34] pw) (fun h => oks (P [34;100;34] pw) (fun d => oks (P [34;101;34] pw) (fun e =>
    oks (number_from_json pw [49]) (fun one =>
    yes (document_eq pw (doc_iter doc)
      [NObject 5; NString a; NNumber one; NString b; NBoolean true; NString c; NString h; NString d;
       NArray 1; NNull; NString e; NObject 0])
    && oks (next_value (doc_iter doc)) (fun '(ov, _) => somes ov (fun v =>
       oks (value_from_json pw source) (fun w => yes (value_eq pw v w))))
    && oks (skip_next_value (doc_iter doc)) (fun it => none (fst (doc_next it)))))))))))) = true.
Proof. vm_compute. reflexivity. Qed.

(** src/number.rs [json_number_from_json], [json_number_conversions], [as_es]; src/value.rs [as_es]. *)
Definition int_types := [I8; I16; I32; I64; I128; Isize; U8; U16; U32; U64; U128; Usize].
Example t_numbers_as :
  all_widths (fun pw =>
    oks (number_from_json pw [49]) (fun n =>
      jn_eq n (JNum (Borrowed [49]))
      && forallb (fun t => somes (as_int pw t n) (Z.eqb 1)) int_types
      && forallb (fun t => somes (value_as_int pw t (VNumber n)) (Z.eqb 1)) int_types
      && match as_float n with Some (FrDec false 1 0%Z) => true | _ => false end)
    && match number_from_json pw [116;114;117;101] with Err (Error _ KExpectedNumber) => true | _ => false end
    && oks (number_from_json pw [48]) (fun n =>
         match as_float n with Some (FrDec _ 0 _) => true | _ => false end
         && match value_as_float (VNumber n) with Some (FrDec _ 0 _) => true | _ => false end)) = true.
Proof. vm_compute. reflexivity. Qed.

(** src/parser.rs [config_test], [validates], [tokenizes], [tokenizer_peek_tests]. *)
Example t_config :
  allowing_all_types_at_root (without_recursion_limit (allowing_trailing_commas config_strict)) true
  = Config true None true.
Proof. reflexivity. Qed.

Example t_validates :
  validate_json W64 [123;34;97;34;58;49;44;34;98;34;58;116;114;117;101;44;34;99;34;58;34;104;101;108;108;111;34;44;34;100;34;58;91;93;44;34;101;34;58;123;125;125] = Ok JkObject
  /\ validate_json_bytes W64 [123;34;97;34;58;49;44;34;98;34;58;116;114;117;101;44;34;99;34;58;34;104;101;108;108;111;34;44;34;100;34;58;91;93;44;34;101;34;58;123;125;125] = Ok JkObject.
Proof. vm_compute. split; reflexivity. Qed.

Fixpoint collect (fuel : nat) (g : bool) (it : byte_iter) : res (error infallible) (list token) :=
  match fuel with
  | O => Fault FExpect
  | S f => match tokenizer_next g W64 it with
           | (None, _) => Ok []
           | (Some (Ok t), it') => let? l := collect f g it' in Ok (t :: l)
           | (Some (Err e), _) => Err e
           | (Some (Fault x), _) => Fault x
           end
  end.
Example t_tokenizes :
  collect 5 true (tokenizer_new [116;114;117;101]) = Ok [TkBool true]
  /\ collect 5 false (tokenizer_new [102;97;108;115;101]) = Ok [TkBool false].
Proof. vm_compute. split; reflexivity. Qed.

Fixpoint peeks (fuel : nat) (it : byte_iter) : list (option peek_kind) * option (res (error infallible) token) :=
  match fuel with
  | O => ([], None)
  | S f => let '(p, it1) := tokenizer_peek it in
           match tokenizer_next true W64 it1 with
           | (Some (Ok _), it2) => let '(ps, x) := peeks f it2 in (p :: ps, x)
           | (x, _) => ([p], x)
           end
  end.
Example t_tokenizer_peek_tests :
  peeks 20 (tokenizer_new [123;34;97;34;58;32;91;49;44;32;116;114;117;101;44;32;102;97;108;115;101;44;32;110;117;108;108;93;125;32])
  = ([Some PkObject; Some PkString; Some PkColon; Some PkArray; Some PkNumber; Some PkComma; Some PkTrue;
      Some PkComma; Some PkFalse; Some PkComma; Some PkNull; Some PkArrayEnd; Some PkObjectEnd; None], None)
  /\ fst (tokenizer_peek (tokenizer_new [60])) = Some PkUnrecognized.
Proof. vm_compute. split; reflexivity. Qed.

(** src/value.rs [value_ases], [primitive_values], [objects], [cow], [index], [froms]. *)
Example t_value_ases :
  all_widths (fun pw =>
    somes (as_bool (value_from_bool true)) (fun b => b)
    && oks (P [34;34] pw) (fun s =>
         somes (as_string (VString s)) (fun x => yes (js_eq_str pw x []))
         && somes (value_as_str pw (VString s)) (bytes_eqb []))
    && oks (number_from_json pw [49]) (fun n =>
         somes (as_number (VNumber n)) (fun m => somes (as_int pw U64 m) (Z.eqb 1)))
    && somes (as_object (VObject object_new)) (fun o => yes (value_eq pw (VObject o) (VObject object_new)))
    && somes (as_array (VArray [])) (fun l => yes (value_eq pw (VArray l) (VArray [])))
    && is_null VNull && negb (is_null (value_from_bool true))
    && none (as_bool VNull) && none (as_number VNull) && none (as_string VNull) && none (value_as_str pw VNull)
    && none (as_object VNull) && none (as_array VNull)) = true.
Proof. vm_compute. reflexivity. Qed.

Definition parses_to (s : list N) (expected : pwidth -> res infallible value) : bool :=
  all_widths (fun pw => oks (value_from_json pw s) (fun v => oks (expected pw) (fun w => yes (value_eq pw v w)))).
Example t_values :
  parses_to [116;114;117;101] (fun _ => Ok (value_from_bool true))
  && parses_to [102;97;108;115;101] (fun _ => Ok (value_from_bool false))
  && parses_to [110;117;108;108] (fun _ => Ok VNull)
  && parses_to [123;125] (fun _ => Ok (VObject object_new))
  && parses_to [123;34;104;101;108;108;111;34;58;34;119;111;114;108;100;34;125] (fun pw =>
       let? h := P [34;104;101;108;108;111;34] pw in let? w := P [34;119;111;114;108;100;34] pw in
       Ok (VObject (object_from_iter [(h, VString w)])))
  && parses_to [32;123;32;34;104;101;108;108;111;34;32;58;32;34;119;111;114;108;100;34;32;44;32;34;97;110;111;116;104;101;114;34;32;58;32;34;118;97;108;117;101;34;32;125] (fun pw =>
       let? h := P [34;104;101;108;108;111;34] pw in let? w := P [34;119;111;114;108;100;34] pw in
       let? a := P [34;97;110;111;116;104;101;114;34] pw in let? v := P [34;118;97;108;117;101;34] pw in
       Ok (VObject [entry_new h (VString w); entry_new a (VString v)])) = true.
Proof. vm_compute. reflexivity. Qed.

Definition assign {C T} (r : mutref C T) (x : T) : C := snd r x.
Definition opt {A} (o : option A) : res infallible A := match o with Some a => Ok a | None => Fault FExpect end.
Definition cow (pw : pwidth) : res infallible (list N) :=
  let? v := unwrap (value_from_json_bytes pw [123;34;97;34;58;49;44;34;98;34;58;116;114;117;101;44;34;99;34;58;34;104;101;108;108;111;34;44;34;100;34;58;91;93;44;34;101;34;58;123;125;125]) in
  let? rb := value_index_str_mut pw v [98] in
  let v := assign rb (value_from_bool false) in
  let? root := opt (as_object_mut v) in
  let? newa := js_from_str pw [110;101;119;97] in
  let? a := js_from_str pw [97] in
  let? r0 := opt (list_get_mut (fst root) 0) in
  let o := assign r0 (newa, value_from_json_string a) in
  let? r3 := opt (list_get_mut o 3) in
  let? d := opt (as_array_mut (snd (fst r3))) in
  let o := assign r3 (fst (fst r3), assign d (fst d ++ [VNull])) in
  let v := assign root o in
  let? rd := value_index_str_mut pw v [100] in
  let? rd0 := value_index_mut (fst rd) 0 in
  let v := assign rd (assign rd0 (value_from_bool false)) in
  to_json pw v.
Example t_cow :
  cow W64 = Ok [123;34;110;101;119;97;34;58;34;97;34;44;34;98;34;58;102;97;108;115;101;44;34;99;34;58;34;104;101;108;108;111;34;44;34;100;34;58;91;102;97;108;115;101;93;44;34;101;34;58;123;125;125] /\ cow W32 = cow W64.
Proof. vm_compute. split; reflexivity. Qed.

Example t_index :
  all_widths (fun pw => oks (value_from_json_bytes pw [123;34;98;34;58;116;114;117;101;44;34;97;34;58;91;102;97;108;115;101;93;125]) (fun v =>
    oks (value_index_str pw v [98]) (fun x => yes (value_eq pw x (value_from_bool true)))
    && none (get_index_mut v 0)
    && oks (value_index_str pw v [97]) (fun x =>
         oks (value_index x 0) (fun y => yes (value_eq pw y (value_from_bool false)))
         && oks (value_get_mut pw x [97]) none))) = true.
Proof. vm_compute. reflexivity. Qed.

Example t_froms :
  all_widths (fun pw => oks (F [97] pw) (fun a =>
    yes (value_eq pw (value_from_bool true) (VBoolean true))
    && yes (value_eq pw (value_from_object object_new) (VObject object_new))
    && yes (value_eq pw (value_from_vec []) (VArray []))
    && oks (value_from_string pw [97]) (fun v => yes (value_eq pw v (VString a)))
    && oks (value_from_str pw [97]) (fun v => yes (value_eq pw v (VString a)))
    && yes (value_eq pw (value_from_json_string a) (VString a)))) = true.
Proof. vm_compute. reflexivity. Qed.

(** src/error.rs [into_fallable_test], [into_infallable_test], [display_tests] hold of every kind:
    see PropErrors.v and PropMessage.v.  Here the doc test of [Object] and the two examples. *)
Example t_object_doc :
  all_widths (fun pw =>
    oks (F [104;101;108;108;111] pw) (fun h => oks (F [119;111;114;108;100] pw) (fun w =>
    oks (to_json pw (VObject (object_push object_new (entry_new h (VString w))))) (bytes_eqb [123;34;104;101;108;108;111;34;58;34;119;111;114;108;100;34;125]))))
  = true.
Proof. vm_compute. reflexivity. Qed.

(** examples/heapless.rs, examples/borrowed-value.rs. *)
Example t_heapless :
  all_widths (fun pw =>
    oks (document_from_json pw (Some 3%nat) [123;34;104;101;108;108;111;34;58;32;34;119;111;114;108;100;34;125]) (fun doc =>
    oks (F [104;101;108;108;111] pw) (fun h => oks (F [119;111;114;108;100] pw) (fun w =>
    yes (document_eq pw doc [NObject 1; NString h; NString w]))))
    && match document_from_json pw (Some 3%nat) [91;49;44;32;50;44;32;51;44;32;52;93] with
       | Err (Error _ KPaylodTooLarge) => true | _ => false end) = true.
Proof. vm_compute. reflexivity. Qed.

Example t_borrowed_value :
  all_widths (fun pw => oks (value_from_json pw [123;34;104;101;108;108;111;34;58;34;119;111;114;108;100;34;125]) (fun v =>
    somes (as_object v) (fun o =>
    match o with
    | (k, x) :: _ => yes (js_eq_str pw k [104;101;108;108;111])
                     && somes (as_string x) (fun s => yes (js_eq_str pw s [119;111;114;108;100]))
    | [] => false
    end))) = true.
Proof. vm_compute. reflexivity. Qed.
