(** Model of pizza_cutter/des_pizza_cutter/_tape_bumps.py (the table, copied
    entry by entry) and of [SEImageSlice._set_tape_bump_mask]
    (_se_image.py:726-754). *)
From Coq Require Import ZArith List Bool.
From Verif Require Import Lib.Base.
Import ListNotations.
Open Scope Z_scope.

(** One dictionary of the table; its 'ccd' entry repeats the key. *)
Record bump := mkbump { row1 : Z; row2 : Z; col1 : Z; col2 : Z; bflag : Z }.

(** TAPE_BUMPS, _tape_bumps.py:10-382: the bumps of every CCD number. *)
Definition tape_bumps : list (Z * list bump) :=
  [(1, [mkbump 1 88 1 129 16384;
    mkbump 2005 2120 1 132 16384;
    mkbump 4005 4096 1 147 16384;
    mkbump 1 114 1902 2048 16384;
    mkbump 3993 4096 1911 2048 16384;
    mkbump 2031 2143 1917 2048 16384]);
   (2, [mkbump 3983 4096 1 139 16384;
    mkbump 1 116 1 148 16384;
    mkbump 2070 2205 1 149 16384;
    mkbump 1 133 1915 2048 16384;
    mkbump 2020 2165 1918 2048 16384;
    mkbump 3986 4096 1927 2048 16384]);
   (3, [mkbump 2019 2169 1 153 16384;
    mkbump 3977 4096 1 155 16384;
    mkbump 1 128 1 164 16384;
    mkbump 3959 4096 1899 2048 16384;
    mkbump 1 89 1905 2048 16384;
    mkbump 2049 2188 1906 2048 16384]);
   (4, [mkbump 1 126 1 138 16384;
    mkbump 2024 2174 1 159 16384;
    mkbump 3981 4096 1 164 16384;
    mkbump 1 120 1904 2048 16384;
    mkbump 1941 2072 1907 2048 16384;
    mkbump 3993 4096 1918 2048 16384]);
   (5, [mkbump 1992 2144 1 141 16384;
    mkbump 1 121 1 144 16384;
    mkbump 3979 4096 1 149 16384;
    mkbump 3967 4096 1896 2048 16384;
    mkbump 1 126 1905 2048 16384;
    mkbump 1937 2083 1909 2048 16384]);
   (6, [mkbump 1 109 1 143 16384;
    mkbump 2074 2205 1 152 16384;
    mkbump 3989 4096 1 152 16384;
    mkbump 1 119 1896 2048 16384;
    mkbump 1823 1965 1896 2048 16384;
    mkbump 3979 4096 1905 2048 16384]);
   (7, [mkbump 2036 2175 1 138 16384;
    mkbump 1 108 1 146 16384;
    mkbump 3975 4096 1 146 16384;
    mkbump 1956 2098 1898 2048 16384;
    mkbump 3970 4096 1907 2048 16384;
    mkbump 1 108 1909 2048 16384]);
   (8, [mkbump 1 138 1 154 16384;
    mkbump 2024 2166 1 157 16384;
    mkbump 3976 4096 1 164 16384;
    mkbump 3968 4096 1872 2048 16384;
    mkbump 1906 2082 1877 2048 16384;
    mkbump 1 122 1893 2048 16384]);
   (9, [mkbump 3971 4096 1 151 16384;
    mkbump 1 132 1 157 16384;
    mkbump 1971 2127 1 175 16384;
    mkbump 1942 2091 1873 2048 16384;
    mkbump 3975 4096 1903 2048 16384;
    mkbump 1 120 1908 2048 16384]);
   (10, [mkbump 1 110 1 134 16384;
    mkbump 3977 4096 1 141 16384;
    mkbump 2087 2251 1 158 16384;
    mkbump 1937 2103 1888 2048 16384;
    mkbump 1 117 1918 2048 16384;
    mkbump 3972 4096 1918 2048 16384]);
   (11, [mkbump 1 121 1 153 16384;
    mkbump 3957 4096 1 153 16384;
    mkbump 2034 2184 1 158 16384;
    mkbump 1 117 1918 2048 16384;
    mkbump 3972 4096 1918 2048 16384;
    mkbump 1958 2098 1922 2048 16384]);
   (12, [mkbump 1 128 1 134 16384;
    mkbump 3987 4096 1 135 16384;
    mkbump 1912 2046 1 136 16384;
    mkbump 4000 4096 1907 2048 16384;
    mkbump 1 113 1918 2048 16384;
    mkbump 1949 2076 1918 2048 16384]);
   (13, [mkbump 1976 2124 1 138 16384;
    mkbump 1 81 1 144 16384;
    mkbump 3963 4096 1 175 16384;
    mkbump 1 123 1896 2048 16384;
    mkbump 1996 2145 1903 2048 16384;
    mkbump 3986 4096 1907 2048 16384]);
   (14, [mkbump 1 113 1 144 16384;
    mkbump 1942 2101 1 148 16384;
    mkbump 3969 4096 1 154 16384;
    mkbump 3982 4096 1909 2048 16384;
    mkbump 1 123 1912 2048 16384;
    mkbump 1914 2072 1912 2048 16384]);
   (15, [mkbump 1 133 1 136 16384;
    mkbump 3970 4096 1 141 16384;
    mkbump 1826 1961 1 152 16384;
    mkbump 1841 1993 1909 2048 16384;
    mkbump 1 136 1913 2048 16384;
    mkbump 3979 4096 1917 2048 16384]);
   (16, [mkbump 3971 4096 1 135 16384;
    mkbump 2167 2301 1 148 16384;
    mkbump 1 108 1 150 16384;
    mkbump 1 113 1890 2048 16384;
    mkbump 2020 2171 1900 2048 16384;
    mkbump 3964 4096 1901 2048 16384]);
   (17, [mkbump 3978 4096 1 154 16384;
    mkbump 1 142 1 162 16384;
    mkbump 1877 2012 1 163 16384;
    mkbump 3993 4096 1894 2048 16384;
    mkbump 1947 2101 1895 2048 16384;
    mkbump 1 148 1896 2048 16384]);
   (18, [mkbump 1 104 1 120 16384;
    mkbump 1926 2058 1 127 16384;
    mkbump 3972 4096 1 135 16384;
    mkbump 1 110 1892 2048 16384;
    mkbump 2016 2160 1922 2048 16384;
    mkbump 3984 4096 1928 2048 16384]);
   (19, [mkbump 2056 2200 1 137 16384;
    mkbump 3974 4096 1 141 16384;
    mkbump 1 121 1 145 16384;
    mkbump 1944 2085 1892 2048 16384;
    mkbump 3987 4096 1913 2048 16384;
    mkbump 1 121 1917 2048 16384]);
   (20, [mkbump 3975 4096 1 136 16384;
    mkbump 2053 2202 1 151 16384;
    mkbump 1 124 1 153 16384;
    mkbump 1 113 1903 2048 16384;
    mkbump 3970 4096 1903 2048 16384;
    mkbump 1935 2094 1910 2048 16384]);
   (21, [mkbump 2023 2168 1 126 16384;
    mkbump 3971 4096 1 126 16384;
    mkbump 1 129 1 147 16384;
    mkbump 1855 2003 1897 2048 16384;
    mkbump 1 122 1901 2048 16384;
    mkbump 3946 4096 1917 2048 16384]);
   (22, [mkbump 1930 2087 1 155 16384;
    mkbump 1 138 1 158 16384;
    mkbump 3967 4096 1 167 16384;
    mkbump 1 127 1895 2048 16384;
    mkbump 3974 4096 1901 2048 16384;
    mkbump 1863 1995 1904 2048 16384]);
   (23, [mkbump 1 120 1 139 16384;
    mkbump 2049 2193 1 145 16384;
    mkbump 3971 4096 1 149 16384;
    mkbump 1925 2083 1893 2048 16384;
    mkbump 1 130 1912 2048 16384;
    mkbump 3978 4096 1914 2048 16384]);
   (24, [mkbump 2086 2214 1 111 16384;
    mkbump 1 107 1 132 16384;
    mkbump 3981 4096 1 138 16384;
    mkbump 1 105 1910 2048 16384;
    mkbump 3981 4096 1913 2048 16384;
    mkbump 2054 2185 1914 2048 16384]);
   (25, [mkbump 1 118 1 127 16384;
    mkbump 2037 2177 1 133 16384;
    mkbump 3983 4096 1 142 16384;
    mkbump 1 122 1885 2048 16384;
    mkbump 3971 4096 1897 2048 16384;
    mkbump 1996 2143 1915 2048 16384]);
   (26, [mkbump 1 106 1 146 16384;
    mkbump 3970 4096 1 152 16384;
    mkbump 2051 2206 1 154 16384;
    mkbump 2013 2150 1894 2048 16384;
    mkbump 1 115 1911 2048 16384;
    mkbump 3970 4096 1913 2048 16384]);
   (27, [mkbump 2083 2222 1 121 16384;
    mkbump 3973 4096 1 134 16384;
    mkbump 1 139 1 140 16384;
    mkbump 1 125 1900 2048 16384;
    mkbump 4000 4096 1914 2048 16384;
    mkbump 1998 2160 1920 2048 16384]);
   (28, [mkbump 2181 2315 1 142 16384;
    mkbump 3983 4096 1 142 16384;
    mkbump 1 117 1 161 16384;
    mkbump 1937 2081 1889 2048 16384;
    mkbump 3953 4096 1897 2048 16384;
    mkbump 1 114 1921 2048 16384]);
   (29, [mkbump 1968 2107 1 131 16384;
    mkbump 1 101 1 146 16384;
    mkbump 3983 4096 1 157 16384;
    mkbump 1 110 1897 2048 16384;
    mkbump 1981 2138 1900 2048 16384;
    mkbump 3952 4096 1900 2048 16384]);
   (30, [mkbump 2174 2326 1 127 16384;
    mkbump 1 110 1 134 16384;
    mkbump 3962 4096 1 149 16384;
    mkbump 3965 4096 1899 2048 16384;
    mkbump 1 138 1904 2048 16384;
    mkbump 1964 2110 1907 2048 16384]);
   (31, [mkbump 2071 2215 1 153 16384;
    mkbump 3967 4096 1 165 16384;
    mkbump 1 112 1 185 16384;
    mkbump 3968 4096 1904 2048 16384;
    mkbump 1 102 1905 2048 16384;
    mkbump 1992 2141 1908 2048 16384]);
   (32, [mkbump 1 112 1 136 16384;
    mkbump 1938 2097 1 136 16384;
    mkbump 3970 4096 1 149 16384;
    mkbump 1940 2081 1900 2048 16384;
    mkbump 3959 4096 1906 2048 16384;
    mkbump 1 140 1922 2048 16384]);
   (33, [mkbump 3996 4096 1 131 16384;
    mkbump 1 115 1 138 16384;
    mkbump 2089 2233 1 140 16384;
    mkbump 1 114 1903 2048 16384;
    mkbump 3974 4096 1913 2048 16384;
    mkbump 2048 2179 1918 2048 16384]);
   (34, [mkbump 1 116 1 125 16384;
    mkbump 2011 2161 1 139 16384;
    mkbump 3962 4096 1 142 16384;
    mkbump 3982 4096 1901 2048 16384;
    mkbump 1915 2058 1906 2048 16384;
    mkbump 1 133 1907 2048 16384]);
   (35, [mkbump 2072 2219 1 136 16384;
    mkbump 1 113 1 137 16384;
    mkbump 3938 4096 1 156 16384;
    mkbump 2121 2263 1886 2048 16384;
    mkbump 1 107 1901 2048 16384;
    mkbump 3987 4096 1913 2048 16384]);
   (36, [mkbump 2037 2188 1 132 16384;
    mkbump 1 131 1 150 16384;
    mkbump 3981 4096 1 154 16384;
    mkbump 1998 2142 1907 2048 16384;
    mkbump 3980 4096 1913 2048 16384;
    mkbump 1 131 1915 2048 16384]);
   (37, [mkbump 1 129 1 133 16384;
    mkbump 2026 2171 1 136 16384;
    mkbump 3970 4096 1 136 16384;
    mkbump 3941 4096 1872 2048 16384;
    mkbump 1970 2125 1890 2048 16384;
    mkbump 1 135 1899 2048 16384]);
   (38, [mkbump 3972 4096 1 135 16384;
    mkbump 1984 2121 1 142 16384;
    mkbump 1 120 1 147 16384;
    mkbump 3981 4096 1897 2048 16384;
    mkbump 1956 2114 1917 2048 16384;
    mkbump 1 102 1927 2048 16384]);
   (39, [mkbump 2026 2170 1 129 16384;
    mkbump 1 129 1 143 16384;
    mkbump 3999 4096 1 155 16384;
    mkbump 2001 2153 1891 2048 16384;
    mkbump 1 144 1896 2048 16384;
    mkbump 3980 4096 1902 2048 16384]);
   (40, [mkbump 3957 4096 1 142 16384;
    mkbump 1 113 1 148 16384;
    mkbump 2069 2225 1 161 16384;
    mkbump 2000 2142 1895 2048 16384;
    mkbump 3958 4096 1898 2048 16384;
    mkbump 1 113 1906 2048 16384]);
   (41, [mkbump 1 121 1 138 16384;
    mkbump 3976 4096 1 138 16384;
    mkbump 1917 2064 1 143 16384;
    mkbump 3969 4096 1886 2048 16384;
    mkbump 1794 1984 1889 2048 16384;
    mkbump 1 130 1913 2048 16384]);
   (42, [mkbump 2069 2217 1 147 16384;
    mkbump 1 117 1 154 16384;
    mkbump 3964 4096 1 156 16384;
    mkbump 1 137 1902 2048 16384;
    mkbump 1982 2142 1903 2048 16384;
    mkbump 3974 4096 1910 2048 16384]);
   (43, [mkbump 1 115 1 142 16384;
    mkbump 3951 4096 1 149 16384;
    mkbump 2044 2196 1 162 16384;
    mkbump 3961 4096 1901 2048 16384;
    mkbump 1966 2125 1902 2048 16384;
    mkbump 1 111 1909 2048 16384]);
   (44, [mkbump 2068 2206 1 140 16384;
    mkbump 1 126 1 152 16384;
    mkbump 3964 4096 1 159 16384;
    mkbump 1 128 1888 2048 16384;
    mkbump 3963 4096 1894 2048 16384;
    mkbump 1974 2119 1904 2048 16384]);
   (45, [mkbump 3983 4096 1 151 16384;
    mkbump 1 134 1 153 16384;
    mkbump 1912 2065 1 164 16384;
    mkbump 3966 4096 1876 2048 16384;
    mkbump 1 141 1877 2048 16384;
    mkbump 1886 2041 1895 2048 16384]);
   (46, [mkbump 3967 4096 1 145 16384;
    mkbump 1 127 1 159 16384;
    mkbump 2006 2154 1 201 16384;
    mkbump 3955 4096 1894 2048 16384;
    mkbump 1950 2110 1897 2048 16384;
    mkbump 1 100 1899 2048 16384]);
   (47, [mkbump 1 122 1 130 16384;
    mkbump 3980 4096 1 134 16384;
    mkbump 1910 2072 1 150 16384;
    mkbump 1 120 1893 2048 16384;
    mkbump 3969 4096 1902 2048 16384;
    mkbump 1880 2030 1913 2048 16384]);
   (48, [mkbump 1 123 1 136 16384;
    mkbump 3988 4096 1 143 16384;
    mkbump 2034 2195 1 151 16384;
    mkbump 1 121 1888 2048 16384;
    mkbump 4002 4096 1902 2048 16384;
    mkbump 1974 2120 1904 2048 16384]);
   (49, [mkbump 3980 4096 1 139 16384;
    mkbump 1 117 1 141 16384;
    mkbump 1998 2144 1 150 16384;
    mkbump 1 129 1891 2048 16384;
    mkbump 3990 4096 1901 2048 16384;
    mkbump 1865 2015 1905 2048 16384]);
   (50, [mkbump 1 122 1 140 16384;
    mkbump 2123 2280 1 142 16384;
    mkbump 3971 4096 1 154 16384;
    mkbump 2066 2209 1895 2048 16384;
    mkbump 3963 4096 1896 2048 16384;
    mkbump 1 121 1899 2048 16384]);
   (51, [mkbump 1 122 1 141 16384;
    mkbump 3964 4096 1 148 16384;
    mkbump 2010 2147 1 156 16384;
    mkbump 2038 2178 1903 2048 16384;
    mkbump 1 113 1906 2048 16384;
    mkbump 3980 4096 1913 2048 16384]);
   (52, [mkbump 1 115 1 137 16384;
    mkbump 3962 4096 1 142 16384;
    mkbump 1852 2004 1 145 16384;
    mkbump 1 131 1893 2048 16384;
    mkbump 3957 4096 1895 2048 16384;
    mkbump 1822 1954 1908 2048 16384]);
   (53, [mkbump 1 161 1 146 16384;
    mkbump 1895 2038 1 150 16384;
    mkbump 3977 4096 1 152 16384;
    mkbump 3965 4096 1903 2048 16384;
    mkbump 1863 2010 1907 2048 16384;
    mkbump 1 123 1909 2048 16384]);
   (54, [mkbump 1 130 1 146 16384;
    mkbump 1967 2123 1 161 16384;
    mkbump 3968 4096 1 162 16384;
    mkbump 1 134 1895 2048 16384;
    mkbump 1941 2079 1898 2048 16384;
    mkbump 3974 4096 1904 2048 16384]);
   (55, [mkbump 3971 4096 1 148 16384;
    mkbump 1966 2126 1 149 16384;
    mkbump 1 126 1 151 16384;
    mkbump 3964 4096 1898 2048 16384;
    mkbump 1964 2113 1903 2048 16384;
    mkbump 1 145 1908 2048 16384]);
   (56, [mkbump 1 93 1 134 16384;
    mkbump 2063 2217 1 140 16384;
    mkbump 3951 4096 1 145 16384;
    mkbump 1955 2095 1902 2048 16384;
    mkbump 1 108 1916 2048 16384;
    mkbump 3973 4096 1919 2048 16384]);
   (57, [mkbump 2105 2263 1 127 16384;
    mkbump 1 108 1 140 16384;
    mkbump 3962 4096 1 143 16384;
    mkbump 1968 2127 1895 2048 16384;
    mkbump 1 111 1913 2048 16384;
    mkbump 3974 4096 1917 2048 16384]);
   (58, [mkbump 3996 4096 1 122 16384;
    mkbump 1834 1969 1 131 16384;
    mkbump 1 98 1 137 16384;
    mkbump 1 124 1900 2048 16384;
    mkbump 4003 4096 1903 2048 16384;
    mkbump 1967 2093 1905 2048 16384]);
   (59, [mkbump 1 121 1 130 16384;
    mkbump 2120 2278 1 139 16384;
    mkbump 3970 4096 1 145 16384;
    mkbump 1966 2125 1894 2048 16384;
    mkbump 1 115 1896 2048 16384;
    mkbump 3968 4096 1899 2048 16384]);
   (60, [mkbump 1884 2036 1 146 16384;
    mkbump 1 138 1 151 16384;
    mkbump 3967 4096 1 153 16384;
    mkbump 3963 4096 1882 2048 16384;
    mkbump 1910 2048 1893 2048 16384;
    mkbump 1 138 1897 2048 16384]);
   (61, [mkbump 1 144 1 131 16384;
    mkbump 1873 2033 1 143 16384;
    mkbump 3983 4096 1 160 16384;
    mkbump 1880 2033 1883 2048 16384;
    mkbump 3985 4096 1894 2048 16384;
    mkbump 1 121 1908 2048 16384]);
   (62, [mkbump 1 109 1 133 16384;
    mkbump 1914 2060 1 139 16384;
    mkbump 3975 4096 1 147 16384;
    mkbump 1 135 1905 2048 16384;
    mkbump 1931 2071 1906 2048 16384;
    mkbump 3977 4096 1908 2048 16384])].

(** [TAPE_BUMPS[ccdnum]], _se_image.py:743-744; KeyError for other numbers. *)
Fixpoint lookup_ccd (l : list (Z * list bump)) (ccdnum : Z) : result (list bump) :=
  match l with
  | [] => Raise KeyError
  | (k, bumps) :: l => if ccdnum =? k then Ok bumps else lookup_ccd l ccdnum
  end.

(** [a[r1:r2, c1:c2] op= v]: in place update of a numpy slice. *)
Definition slice_update {A} (a : img A) (r1 r2 c1 c2 : Z) (f : A -> A) : img A :=
  let '(rs, re) := pyslice (nrows a) r1 r2 in
  let '(cs, ce) := pyslice (ncols a) c1 c2 in
  mkimg (nrows a) (ncols a)
    (fun r c => if (rs <=? r) && (r <? re) && (cs <=? c) && (c <? ce)
                then f (px a r c) else px a r c).

Definition suspect : Z := 2048.

(** 746-754, the body of the loop. *)
Definition mask_bump (bmask : img Z) (b : bump) : img Z :=
  let bmask := slice_update bmask (row1 b) (row2 b + 1) (col1 b) (col2 b + 1)
                 (fun x => Z.lor x (bflag b)) in
  slice_update bmask (row1 b) (row2 b + 1) (col1 b) (col2 b + 1)
    (fun x => Z.land x (Z.lnot suspect)).

(** _set_tape_bump_mask, _se_image.py:726-754: the new contents of the array
    that is modified in place. *)
Definition set_tape_bump_mask (ccdnum : Z) (bmask : img Z) : result (img Z) :=
  bumps <- lookup_ccd tape_bumps ccdnum ;;
  Ok (fold_left mask_bump bumps bmask).
