(** * The configuration files shipped with the package, as parsed YAML

    geec/cfg/config_default.yaml and geec/cfg/config_template.yaml.  A decimal
    literal is written as a quotient of two integers that are exact in double
    precision, whose correctly rounded quotient is the double Python reads. *)
From Coq Require Import List ZArith String.
Import ListNotations.
From Verif Require Import Base MConfig.
Local Open Scope string_scope.

Section Default.
  Context {A : arith}.

  Definition dec (m e : Z) : yaml A := YFloat (ndiv (nofZ m) (nofZ e)).

  (** the grid of both files: config_default.yaml:36-39, config_template.yaml:44-47 *)
  Definition y_grid : yaml A :=
    YMap [("xstart_xend_xstep", YList [dec (-105) 100; dec 106 100; dec 1 10]);
          ("ystart_yend_ystep", YList [dec (-105) 100; dec 106 100; dec 1 10]);
          ("zstart_zend_zstep", YList [YInt 0; YInt 1; YInt 1])].

  (** geec/cfg/config_default.yaml *)
  Definition config_default : yaml A :=
    YMap [("masses", YList
      [YMap [("points", YNull);
             ("file_path", YStr "./geec/data/dem0.csv");
             ("density", dec 1000 1);
             ("gravity_constant", dec 667408 10000000000000000);
             ("crs", YMap [("ref", YStr "ellps");
                           ("name", YStr "wgs84");
                           ("semimajor_axis", YNull);
                           ("semiminor_axis", YNull);
                           ("longitude_origin", dec 403 10);
                           ("latitude_origin", dec 126 10);
                           ("altitude_origin", YInt 150);
                           ("vdatum", YStr "egm96")])]]);
     ("observers",
       YMap [("points", YList []);
             ("file_path", YNull);
             ("grid", y_grid);
             ("crs", YMap [("ref", YNull);
                           ("name", YStr "airy");
                           ("semimajor_axis", YNull);
                           ("semiminor_axis", YNull);
                           ("longitude_origin", YNull);
                           ("latitude_origin", YNull);
                           ("altitude_origin", YNull)])])].

  Definition y_point (x y z : Z) : yaml A := YList [dec x 10; dec y 10; dec z 10].

  (** geec/cfg/config_template.yaml *)
  Definition config_template : yaml A :=
    YMap [("masses", YList
      [YMap [("points", YList
               [y_point (-5) (-5) 0; y_point 5 (-5) 0; y_point 5 5 0; y_point (-5) 5 0;
                y_point (-5) (-5) (-10); y_point 5 (-5) (-10); y_point 5 5 (-10); y_point (-5) 5 (-10)]);
             ("file_path", YStr "/path/to/file/cube.csv");
             ("density", dec 1000 1);
             ("gravity_constant", dec 667408 10000000000000000);
             ("crs", YMap [("ref", YStr "ellps");
                           ("name", YNull);
                           ("semimajor_axis", YNull);
                           ("semiminor_axis", YNull);
                           ("longitude_origin", YNull);
                           ("latitude_origin", YNull);
                           ("altitude_origin", YNull);
                           ("vdatum", YNull)])]]);
     ("observers",
       YMap [("points", YList []);
             ("file_path", YStr "");
             ("grid", y_grid);
             ("crs", YMap [("ref", YNull);
                           ("name", YNull);
                           ("semimajor_axis", YNull);
                           ("semiminor_axis", YNull);
                           ("longitude_origin", YNull);
                           ("latitude_origin", YNull);
                           ("altitude_origin", YNull)])])].
End Default.
